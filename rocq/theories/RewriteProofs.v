(** Proofs about rewriting legacy lineages. *)
From Verif Require Import Prelude Version VersionProofs Search SearchProofs ValidateErr Native Split
  Lineage LineageProofs WalkProofs GoLensProofs BindFacts Rewrite.
From Coq Require Import Sorting.Sorted ZifyBool ZifyN ZifyNat.
Local Open Scope string_scope.
Local Open Scope list_scope.

Definition two64 : N := 18446744073709551616%N.

(** *** Specification *)

(** A legacy lineage with all [schemas] lists, given by them. *)
Definition seqs_are (seqs : list lseq) (ls : list (list sch_src)) : Prop := map q_schemas seqs = map Some ls.

(** Sizes that Go slices can have. *)
Definition go_sizes (ls : list (list sch_src)) : Prop :=
  (N.of_nat (length ls) < two64)%N /\ Forall (fun l => (N.of_nat (length l) < two64)%N) ls.

(** The numbers of [n] schemas of major [i]. *)
Definition minors (i : N) (n : nat) : list version := map (fun j => (i, N.of_nat j)) (seq 0 n).
Fixpoint numbers (i : N) (ls : list (list sch_src)) : list version :=
  match ls with
  | [] => []
  | l :: r => minors i (length l) ++ numbers (i + 1)%N r
  end.

Definition ll_id (l : legacyLens) : lensID := (ll_from l, ll_to l).
Definition ll_order (l : legacyLens) : version * version := (ll_to l, ll_from l).

(** *** One sequence *)

Lemma usub_pred n : (0 < n < two64)%N -> usub n 1 = (n - 1)%N.
Proof.
  unfold usub, two64. intros H. replace (n + 18446744073709551616 - 1)%N with ((n - 1) + 1 * 18446744073709551616)%N by lia.
  rewrite N.mod_add by lia. apply N.mod_small. lia.
Qed.

Definition minors_from (i : N) (k n : nat) : list version := map (fun j => (i, N.of_nat j)) (seq k n).

Lemma seq_parts_spec maj l : forall k, (N.of_nat (k + length l) < two64)%N ->
  exists lens, seq_parts maj (N.of_nat k) l =
    (map (fun x => mkLSch (fst x) (snd x)) (combine (minors_from maj k (length l)) l), lens, N.of_nat (k + length l)) /\
    (forall x, In x lens -> ll_mapper x = LAbsent /\ ll_lacunas x = LAbsent) /\
    match k, l with
    | O, [] => lens = []
    | O, _ :: r => map ll_id lens = expected (maj, 0%N) (minors_from maj 1 (length r))
    | S k', _ => map ll_id lens = expected (maj, N.of_nat k') (minors_from maj k (length l))
    end.
Proof.
  induction l as [|s r IH]; intros k H.
  - exists []. cbn. rewrite Nat.add_0_r. split; [reflexivity|]. split; [intros x []|]. destruct k; reflexivity.
  - cbn [length] in H. destruct (IH (S k)) as [lens [E [A I]]]; [lia|].
    cbn [seq_parts length minors_from seq map combine].
    replace (N.of_nat k + 1)%N with (N.of_nat (S k)) by lia. rewrite E.
    destruct k as [|k].
    + cbn [N.of_nat N.eqb negb app]. exists lens. split; [|split; [exact A|exact I]].
      cbn. repeat f_equal; try lia.
    + exists (mkLL (maj, N.of_nat k) (maj, N.of_nat (S k)) LAbsent LAbsent :: lens).
      assert (Z : (N.of_nat (S k) =? 0)%N = false) by lia. rewrite Z. cbn [negb].
      rewrite usub_pred by (unfold two64 in *; lia). replace (N.of_nat (S k) - 1)%N with (N.of_nat k) by lia.
      split; [|split].
      * replace (S (S k) + length r) with (S k + S (length r)) by lia. reflexivity.
      * intros x [<-|K]; [split; reflexivity|apply A; exact K].
      * cbn [map expected minors_from seq fst]. rewrite N.eqb_refl. cbn [negb app]. unfold ll_id at 1. cbn [ll_from ll_to].
        f_equal. exact I.
Qed.

Lemma expected_app a : forall p b, expected p (a ++ b) = expected p a ++ expected (last a p) b.
Proof.
  induction a as [|v a IH]; intros p b; [reflexivity|]. cbn [app expected]. rewrite IH, <- app_assoc.
  destruct a as [|w a]; [reflexivity|]. replace (last (v :: w :: a) p) with (last (w :: a) v); [reflexivity|].
  clear. revert v p w. induction a as [|x a IH]; intros; [reflexivity|]. cbn in *. apply (IH v p x).
Qed.

Lemma minors_last i n : last (minors_from i 1 n) (i, 0%N) = (i, N.of_nat n).
Proof.
  destruct n as [|n]; [reflexivity|]. unfold minors_from. rewrite seq_S, map_app. cbn [map]. rewrite last_last.
  reflexivity.
Qed.

(** *** All sequences *)

Lemma seqs_are_cons q seqs ls : seqs_are (q :: seqs) ls ->
  exists l r, ls = l :: r /\ q_schemas q = Some l /\ seqs_are seqs r.
Proof.
  unfold seqs_are. destruct ls as [|l r]; cbn; [discriminate|]. intros H. injection H as H1 H2. eauto.
Qed.

Definition paired (vs : list version) (raws : list sch_src) : list legacySchema :=
  map (fun x => mkLSch (fst x) (snd x)) (combine vs raws).

Lemma minors_length i n : length (minors i n) = n.
Proof. unfold minors. rewrite map_length, seq_length. reflexivity. Qed.

Lemma combine_app {A B} (a a' : list A) (b b' : list B) : length a = length b ->
  combine (a ++ a') (b ++ b') = combine a b ++ combine a' b'.
Proof. revert b. induction a as [|x a IH]; intros [|y b] H; cbn in *; try discriminate; [reflexivity|]. f_equal. auto. Qed.

Lemma loop_schemas seqs : forall maj lm ls, seqs_are seqs ls ->
  Forall (fun l => (N.of_nat (length l) < two64)%N) ls ->
  exists lens, parts_loop maj lm seqs = Ok (paired (numbers maj ls) (concat ls), lens).
Proof.
  induction seqs as [|q seqs IH]; intros maj lm ls H F.
  - destruct ls; [|discriminate]. cbn. eauto.
  - apply seqs_are_cons in H as [l [r [-> [Q H]]]]. inversion F as [|? ? F1 F2]; subst.
    cbn [parts_loop numbers concat]. rewrite Q.
    destruct (seq_parts_spec maj l 0) as [lens [E _]]; [exact F1|]. change (N.of_nat 0) with 0%N in E. rewrite E.
    destruct (IH (maj + 1)%N (N.of_nat (0 + length l)) r H F2) as [lens2 E2]. rewrite E2. cbn [bind fst snd].
    eexists. f_equal. f_equal. unfold paired. rewrite combine_app by apply minors_length. rewrite map_app. reflexivity.
Qed.

(** Ids of the lenses of a suffix, given the schema before it. *)
Lemma loop_lenses seqs : forall maj lm ls, seqs_are seqs ls ->
  Forall (fun l => (N.of_nat (length l) < two64)%N) ls -> Forall (fun l => l <> []) ls ->
  (0 < maj)%N -> (maj + N.of_nat (length ls) <= two64)%N -> (0 < lm < two64)%N ->
  exists lens, parts_loop maj lm seqs = Ok (paired (numbers maj ls) (concat ls), lens) /\
    map ll_id lens = expected (maj - 1, lm - 1)%N (numbers maj ls).
Proof.
  induction seqs as [|q seqs IH]; intros maj lm ls H F NE M1 M2 L.
  - destruct ls; [|discriminate]. cbn. eauto.
  - apply seqs_are_cons in H as [l [r [-> [Q H]]]]. inversion F as [|? ? F1 F2]; subst.
    inversion NE as [|? ? N1 N2]; subst. destruct l as [|s l]; [contradiction|]. cbn [length] in *.
    cbn [parts_loop numbers concat]. rewrite Q.
    destruct (seq_parts_spec maj (s :: l) 0) as [lens [E [_ I]]]; [cbn [length]; lia|].
    change (N.of_nat 0) with 0%N in E. rewrite E.
    destruct (IH (maj + 1)%N (N.of_nat (0 + length (s :: l))) r H F2 N2) as [lens2 [E2 I2]];
      [lia|lia|cbn [length]; lia|].
    rewrite E2. cbn [bind fst snd]. assert (Z : (maj =? 0)%N = false) by lia. rewrite Z. cbn [negb].
    eexists. split.
    + f_equal. f_equal. unfold paired. change (s :: l ++ concat r) with ((s :: l) ++ concat r).
      rewrite combine_app by apply minors_length. rewrite map_app. reflexivity.
    + rewrite !map_app, I, I2. rewrite !usub_pred by lia. cbn [map app]. unfold ll_id. cbn [ll_from ll_to].
      cbn [minors length]. unfold minors. cbn [seq map app expected fst].
      assert (Z2 : (maj =? maj - 1)%N = false) by lia. rewrite Z2. cbn [negb app].
      fold (minors_from maj 1 (length l)). f_equal. f_equal.
      rewrite expected_app, minors_last. f_equal. f_equal. f_equal; [lia|]. cbn [length]. lia.
Qed.

Lemma lenses_ids seqs ls : seqs_are seqs ls -> go_sizes ls -> Forall (fun l => l <> []) ls ->
  exists lens, extractParts (Some seqs) = Ok (paired (numbers 0 ls) (concat ls), lens) /\
    match numbers 0 ls with
    | [] => lens = []
    | v :: r => v = (0, 0)%N /\ map ll_id lens = expected v r
    end.
Proof.
  intros H [G F] NE. unfold extractParts. destruct seqs as [|q seqs].
  - destruct ls; [|discriminate]. cbn. eauto.
  - apply seqs_are_cons in H as [l [r [-> [Q H]]]]. inversion F as [|? ? F1 F2]; subst.
    inversion NE as [|? ? N1 N2]; subst. destruct l as [|s l]; [contradiction|]. cbn [length] in *.
    cbn [parts_loop numbers concat]. rewrite Q.
    destruct (seq_parts_spec 0 (s :: l) 0) as [lens [E [_ I]]]; [cbn [length]; lia|].
    change (N.of_nat 0) with 0%N in E. rewrite E.
    destruct (loop_lenses seqs (0 + 1)%N (N.of_nat (0 + length (s :: l))) r H F2 N2) as [lens2 [E2 I2]];
      [lia|unfold two64 in *; lia|cbn [length]; lia|].
    rewrite E2. cbn [bind fst snd N.eqb negb app]. eexists. split.
    + f_equal. f_equal. unfold paired. change (s :: l ++ concat r) with ((s :: l) ++ concat r).
      rewrite combine_app by apply minors_length. rewrite map_app. reflexivity.
    + cbn [minors length]. unfold minors. cbn [seq map app]. split; [reflexivity|].
      rewrite map_app, I, I2. fold (minors_from 0 1 (length l)). rewrite expected_app, minors_last.
      f_equal. f_equal. f_equal. cbn [length]. lia.
Qed.

(** *** Versions *)

Lemma minors_in i n v : In v (minors i n) <-> fst v = i /\ (snd v < N.of_nat n)%N.
Proof.
  unfold minors. rewrite in_map_iff. split.
  - intros [j [<- H]]. apply in_seq in H. cbn. lia.
  - intros [H1 H2]. exists (N.to_nat (snd v)). destruct v as [a b]. cbn in *. subst. split; [f_equal; lia|].
    apply in_seq. lia.
Qed.

Lemma numbers_in ls : forall i v, In v (numbers i ls) <->
  exists k l, nth_error ls k = Some l /\ fst v = (i + N.of_nat k)%N /\ (snd v < N.of_nat (length l))%N.
Proof.
  induction ls as [|l r IH]; intros i v; cbn [numbers].
  - split; [intros []|]. intros [k [l [H _]]]. destruct k; discriminate.
  - rewrite in_app_iff, minors_in, IH. split.
    + intros [[H1 H2]|[k [l' [H1 [H2 H3]]]]].
      * exists 0, l. cbn. split; [reflexivity|]. lia.
      * exists (S k), l'. cbn. split; [exact H1|]. lia.
    + intros [k [l' [H1 [H2 H3]]]]. destruct k as [|k]; cbn in H1.
      * injection H1 as <-. left. lia.
      * right. exists k, l'. split; [exact H1|]. lia.
Qed.

Lemma minors_strict i n : strict_vs (minors i n).
Proof.
  unfold minors, strict_vs. generalize 0. induction n as [|n IH]; intros k; cbn; constructor; [apply IH|].
  apply Forall_forall. intros v Hv. apply in_map_iff in Hv as [j [<- Hj]]. apply in_seq in Hj. unfold vlt. cbn. lia.
Qed.

Lemma sorted_app {A} (R : A -> A -> Prop) a b : StronglySorted R a -> StronglySorted R b ->
  (forall x y, In x a -> In y b -> R x y) -> StronglySorted R (a ++ b).
Proof.
  induction 1 as [|x a H IH F]; intros B C; [exact B|]. cbn. constructor.
  - apply IH; [exact B|]. intros y z Hy Hz. apply C; [right|]; assumption.
  - apply Forall_app. split; [exact F|]. apply Forall_forall. intros y Hy. apply C; [left; reflexivity|exact Hy].
Qed.

Lemma numbers_strict ls : forall i, strict_vs (numbers i ls).
Proof.
  induction ls as [|l r IH]; intros i; [constructor|]. cbn [numbers]. apply sorted_app; [apply minors_strict|apply IH|].
  intros x y Hx Hy. apply minors_in in Hx as [Hx _]. apply numbers_in in Hy as [k [l' [_ [Hy _]]]].
  unfold vlt. lia.
Qed.

Lemma expected_sorted vs : forall p, strict_vs (p :: vs) ->
  StronglySorted lens_order (map (fun id => (snd id, fst id)) (expected p vs)).
Proof.
  induction vs as [|v r IH]; intros p S; cbn [expected]; [constructor|].
  inversion S as [|? ? S' F]; subst. assert (P : vlt p v) by (inversion F; assumption).
  assert (R : Forall (lens_order (v, p)) (map (fun id => (snd id, fst id)) (expected v r))).
  { apply Forall_forall. intros x Hx. apply in_map_iff in Hx as [id [<- Hid]].
    destruct (expected_ge r v id S' Hid) as [G1 G2]. unfold lens_order. cbn [fst snd].
    destruct G2 as [G2|G2]; [left; exact G2|]. right. split; [exact G2|]. left.
    destruct G1 as [G1|<-]; [eapply vlt_trans; eauto|exact P]. }
  assert (Q : Forall (lens_order (p, v)) (map (fun id => (snd id, fst id)) (expected v r))).
  { apply Forall_forall. intros x Hx. apply in_map_iff in Hx as [id [<- Hid]].
    destruct (expected_ge r v id S' Hid) as [_ G2]. left. cbn [fst snd].
    destruct G2 as [G2|<-]; [eapply vlt_trans; eauto|exact P]. }
  cbn [map fst snd]. constructor.
  - destruct (negb _); cbn [app map fst snd]; [constructor; [apply IH; exact S'|exact R]|apply IH; exact S'].
  - destruct (negb _); cbn [app map fst snd]; [|exact Q]. constructor; [left; exact P|exact Q].
Qed.

(** *** Where bodies come from *)

(** A lens within a major is to be implemented; the others come from their
    sequence. *)
Definition body_origin (seqs : list lseq) (i : N) (x : legacyLens) : Prop :=
  (fst (ll_from x) = fst (ll_to x) /\ ll_mapper x = LAbsent /\ ll_lacunas x = LAbsent) \/
  exists k q, nth_error seqs k = Some q /\
    ((fst (ll_from x) = (i + N.of_nat k)%N /\ (fst (ll_to x) + 1)%N = (i + N.of_nat k)%N /\
      ll_mapper x = q_reverse_rel q /\ ll_lacunas x = q_reverse_lacunas q) \/
     (fst (ll_to x) = (i + N.of_nat k)%N /\ (fst (ll_from x) + 1)%N = (i + N.of_nat k)%N /\
      ll_mapper x = q_forward_rel q /\ ll_lacunas x = q_forward_lacunas q)).

Lemma seq_parts_same maj l : forall k schs lens m, seq_parts maj k l = (schs, lens, m) ->
  forall x, In x lens -> fst (ll_from x) = fst (ll_to x) /\ ll_mapper x = LAbsent /\ ll_lacunas x = LAbsent.
Proof.
  induction l as [|s r IH]; intros k schs lens m E x Hx; cbn in E.
  - injection E as <- <- <-. destruct Hx.
  - destruct (seq_parts maj (k + 1) r) as [[schs' lens'] m'] eqn:E'. injection E as <- <- <-.
    apply in_app_or in Hx as [Hx|Hx]; [|eapply IH; eauto].
    destruct (negb _); [|destruct Hx]. destruct Hx as [<-|[]]. repeat split.
Qed.

Lemma loop_bodies seqs : forall maj lm schs lens,
  (maj + N.of_nat (length seqs) <= two64)%N -> parts_loop maj lm seqs = Ok (schs, lens) ->
  forall x, In x lens -> body_origin seqs maj x.
Proof.
  induction seqs as [|q seqs IH]; intros maj lm schs lens B E x Hx; cbn [parts_loop] in E.
  - injection E as <- <-. destruct Hx.
  - cbn [length] in B. destruct (q_schemas q) as [l|]; [|discriminate].
    destruct (seq_parts maj 0 l) as [[schs1 lens1] m] eqn:E1.
    destruct (parts_loop (maj + 1) m seqs) as [[schs2 lens2]| | |] eqn:E2; try discriminate.
    cbn [bind fst snd] in E. injection E as <- <-. apply in_app_or in Hx as [Hx|Hx]; [|apply in_app_or in Hx as [Hx|Hx]].
    + destruct (N.eqb_spec maj 0) as [Z|Z]; cbn [negb] in Hx; [destruct Hx|].
      right. exists 0, q. split; [reflexivity|].
      destruct Hx as [<-|[<-|[]]]; [left|right]; cbn [ll_from ll_to fst snd ll_mapper ll_lacunas];
        rewrite (usub_pred maj) by lia; repeat split; lia.
    + left. eapply seq_parts_same; eauto.
    + destruct (IH (maj + 1)%N m schs2 lens2 ltac:(lia) E2 x Hx) as [H|[k [q' [H1 H2]]]]; [left; exact H|].
      right. exists (S k), q'. split; [exact H1|].
      replace (maj + N.of_nat (S k))%N with (maj + 1 + N.of_nat k)%N by lia. exact H2.
Qed.

(** *** C40 *)

Lemma rewrite_exact seqs ls :
  seqs_are seqs ls -> go_sizes ls -> Forall (fun l => l <> []) ls ->
  exists schs lens, extractParts (Some seqs) = Ok (schs, lens) /\
    map ls_raw schs = concat ls /\ map ls_v schs = numbers 0 ls /\
    (forall id, In id (map ll_id lens) <-> entailed (map ls_v schs) id) /\
    NoDup (map ll_id lens) /\ StronglySorted lens_order (map ll_order lens) /\
    (forall x, In x lens -> body_origin seqs 0 x).
Proof.
  intros H G NE. destruct (lenses_ids seqs ls H G NE) as [lens [E I]].
  assert (LN : forall i ls, length (numbers i ls) = length (concat ls)).
  { intros i ls'. revert i. induction ls' as [|l r IH]; intros i; [reflexivity|]. cbn.
    rewrite !app_length, minors_length, IH. reflexivity. }
  assert (PV : map ls_v (paired (numbers 0 ls) (concat ls)) = numbers 0 ls).
  { unfold paired. rewrite map_map. cbn. generalize (LN 0%N ls). generalize (numbers 0 ls) (concat ls).
    induction l as [|a l IHl]; intros [|b l'] K; cbn in *; try discriminate; [reflexivity|]. f_equal. auto. }
  assert (PR : map ls_raw (paired (numbers 0 ls) (concat ls)) = concat ls).
  { unfold paired. rewrite map_map. cbn. generalize (LN 0%N ls). generalize (numbers 0 ls) (concat ls).
    induction l as [|a l IHl]; intros [|b l'] K; cbn in *; try discriminate; [reflexivity|]. f_equal. auto. }
  exists (paired (numbers 0 ls) (concat ls)), lens. split; [exact E|]. split; [exact PR|]. split; [exact PV|].
  rewrite PV. pose proof (numbers_strict ls 0) as S.
  assert (LO : map ll_order lens = map (fun id => (snd id, fst id)) (map ll_id lens)).
  { rewrite map_map. reflexivity. }
  rewrite LO. destruct (numbers 0 ls) as [|v r].
  - subst lens. cbn. split; [|split; [constructor|split; [constructor|intros x []]]]. intros id. split; [intros []|].
    intros [i [a [b [K _]]]]. destruct i; discriminate.
  - destruct I as [_ ->]. split; [apply expected_entailed|]. split; [apply expected_nodup; exact S|].
    split; [apply expected_sorted; exact S|]. unfold extractParts in E. intros x Hx.
    eapply loop_bodies; [|exact E|exact Hx]. destruct G as [G _].
    apply (f_equal (@length _)) in H. rewrite !map_length in H. lia.
Qed.

(** Dense numbering, as documented for the new form. *)
Lemma numbers_dense ls : Forall (fun l => l <> []) ls -> ls <> [] -> dense (numbers 0 ls).
Proof.
  intros NE N. split.
  - destruct ls as [|[|s l] r]; [contradiction|inversion NE; contradiction|]. reflexivity.
  - intros a b [i [H1 H2]]. clear N. revert H1 H2 NE.
    assert (Gen : forall maj i, nth_error (numbers maj ls) i = Some a -> nth_error (numbers maj ls) (S i) = Some b ->
      Forall (fun l => l <> []) ls -> b = (fst a, snd a + 1)%N \/ b = (fst a + 1, 0)%N); [|apply Gen].
    clear i. intros maj i. revert i maj.
    induction ls as [|l r IH]; intros i maj H1 H2 NE; [destruct i; discriminate|].
    inversion NE as [|? ? N1 N2]; subst. cbn [numbers] in *.
    assert (L : length (minors maj (length l)) = length l) by apply minors_length.
    assert (At : forall j v, nth_error (minors maj (length l)) j = Some v -> v = (maj, N.of_nat j)).
    { intros j v K. unfold minors in K. assert (J : j < length l).
      { assert (K2 : nth_error (minors maj (length l)) j <> None) by (unfold minors; rewrite K; discriminate).
        apply nth_error_Some in K2. rewrite L in K2. exact K2. }
      rewrite (map_nth_error _ _ _ (d := j)) in K; [congruence|].
      rewrite (nth_error_nth' _ 0) by (rewrite seq_length; exact J). rewrite seq_nth by exact J. reflexivity. }
    destruct (Nat.lt_ge_cases (S i) (length l)) as [C|C].
    + rewrite nth_error_app1 in H1, H2 by lia. apply At in H1, H2. subst. left. cbn. f_equal. lia.
    + destruct (Nat.eq_dec (S i) (length l)) as [D|D].
      * rewrite nth_error_app1 in H1 by lia. apply At in H1. subst a. rewrite nth_error_app2 in H2 by lia.
        rewrite L, D, Nat.sub_diag in H2. right. cbn.
        destruct r as [|[|s l'] r']; [discriminate|inversion N2; contradiction|]. cbn in H2. injection H2 as <-. reflexivity.
      * rewrite nth_error_app2 in H1, H2 by lia. rewrite L in H1, H2.
        replace (S i - length l) with (S (i - length l)) in H2 by lia.
        apply (IH (i - length l) (maj + 1)%N); assumption.
Qed.

(** *** C41 *)

Lemma loop_major seqs : forall maj lm ls schs lens, seqs_are seqs ls ->
  Forall (fun l => (N.of_nat (length l) < two64)%N) ls ->
  parts_loop maj lm seqs = Ok (schs, lens) ->
  forall k, k < length seqs -> (0 < maj + N.of_nat k)%N ->
    exists x, In x lens /\ ll_to x = (maj + N.of_nat k, 0)%N /\
      ll_from x = (usub (maj + N.of_nat k) 1,
                   usub (match k with O => lm | S k' => match nth_error ls k' with Some l => N.of_nat (length l) | None => 0%N end end) 1).
Proof.
  induction seqs as [|q seqs IH]; intros maj lm ls schs lens H F E k Hk P; [cbn in Hk; lia|].
  apply seqs_are_cons in H as [l [r [-> [Q H]]]]. inversion F as [|? ? F1 F2]; subst.
  cbn [parts_loop] in E. rewrite Q in E.
  destruct (seq_parts_spec maj l 0) as [lens1 [E1 _]]; [exact F1|]. change (N.of_nat 0) with 0%N in E1. rewrite E1 in E.
  destruct (parts_loop (maj + 1) (N.of_nat (0 + length l)) seqs) as [[schs2 lens2]| | |] eqn:E2; try discriminate.
  cbn [bind fst snd] in E. injection E as <- <-. destruct k as [|k].
  - rewrite N.add_0_r in *. assert (Z : (maj =? 0)%N = false) by lia. rewrite Z. cbn [negb].
    eexists. split; [right; left; reflexivity|]. split; reflexivity.
  - cbn [length] in Hk.
    destruct (IH (maj + 1)%N (N.of_nat (0 + length l)) r schs2 lens2 H F2 E2 k) as [x [X1 [X2 X3]]]; [lia|lia|].
    exists x. split; [apply in_or_app; right; apply in_or_app; right; exact X1|].
    replace (maj + N.of_nat (S k))%N with (maj + 1 + N.of_nat k)%N by lia. split; [exact X2|].
    rewrite X3. destruct k as [|k]; reflexivity.
Qed.

(** No lens names a version that is not there. *)
Definition no_dangling (schs : list legacySchema) (lens : list legacyLens) : Prop :=
  forall x, In x lens -> In (ll_to x) (map ls_v schs) /\ In (ll_from x) (map ls_v schs).

Lemma paired_versions i ls : map ls_v (paired (numbers i ls) (concat ls)) = numbers i ls.
Proof.
  assert (LN : forall i ls, length (numbers i ls) = length (concat ls)).
  { intros j ls'. revert j. induction ls' as [|l r IH]; intros j; [reflexivity|]. cbn.
    rewrite !app_length, minors_length, IH. reflexivity. }
  unfold paired. rewrite map_map. cbn. generalize (LN i ls). generalize (numbers i ls) (concat ls).
  induction l as [|a l IHl]; intros [|b l'] K; cbn in *; try discriminate; [reflexivity|]. f_equal. auto.
Qed.

Lemma dangling_exact seqs ls :
  seqs_are seqs ls -> go_sizes ls ->
  exists schs lens, extractParts (Some seqs) = Ok (schs, lens) /\
    (no_dangling schs lens <-> Forall (fun l => l <> []) ls \/ length ls <= 1).
Proof.
  intros H [G F]. destruct (loop_schemas seqs 0 0 ls H F) as [lens E].
  exists (paired (numbers 0 ls) (concat ls)), lens. split; [exact E|].
  assert (L : length seqs = length ls).
  { apply (f_equal (@length _)) in H. rewrite !map_length in H. exact H. }
  unfold no_dangling. rewrite paired_versions. split.
  - intros D. destruct (Nat.le_gt_cases (length ls) 1) as [C|C]; [right; exact C|left].
    apply Forall_forall. intros l Hl ->. apply In_nth_error in Hl as [k Hk].
    assert (K : k < length ls) by (apply nth_error_Some; congruence).
    assert (NoV : forall b, ~ In (N.of_nat k, b) (numbers 0 ls)).
    { intros b K'. apply numbers_in in K' as [k' [l' [H1 [H2 H3]]]]. cbn [fst snd] in *.
      assert (k' = k) by lia. subst k'. rewrite Hk in H1. injection H1 as <-. cbn in H3. lia. }
    destruct k as [|k].
    + destruct (loop_major seqs 0 0 ls _ _ H F E 1) as [x [X1 [_ X3]]]; [lia|lia|].
      destruct (D x X1) as [_ D2]. rewrite X3 in D2. apply (NoV _ D2).
    + destruct (loop_major seqs 0 0 ls _ _ H F E (S k)) as [x [X1 [X2 _]]]; [lia|lia|].
      destruct (D x X1) as [D1 _]. rewrite X2 in D1. apply (NoV _ D1).
  - intros [NE|C].
    + destruct (rewrite_exact seqs ls H (conj G F) NE) as [schs [lens' [E' [_ [V [I _]]]]]].
      unfold extractParts in E'. rewrite E in E'.
      assert (X1 : schs = paired (numbers 0 _) (concat _)) by (apply (f_equal (fun o => match o with Ok p => fst p | _ => [] end)) in E'; symmetry; exact E').
      assert (X2 : lens' = lens) by (apply (f_equal (fun o => match o with Ok p => snd p | _ => [] end)) in E'; symmetry; exact E').
      subst schs lens'. rewrite paired_versions in I.
      intros x Hx. assert (K : In (ll_id x) (map ll_id lens)) by (apply in_map; exact Hx).
      apply I in K as [i [a [b [K1 [K2 K3]]]]]. apply nth_error_In in K1, K2. unfold ll_id in K3.
      destruct K3 as [K3|[K3 _]]; injection K3 as -> ->; auto.
    + destruct ls as [|l [|l2 r]]; cbn [length] in C; [| |lia].
      * destruct seqs; [|discriminate]. cbn in E. injection E as <-. intros x [].
      * destruct l as [|s l].
        -- destruct seqs as [|q [|q2 seqs]]; cbn in L; try discriminate. cbn [parts_loop] in E.
           apply seqs_are_cons in H as [l' [r' [K1 [Q _]]]]. injection K1 as <- <-. rewrite Q in E.
           cbn in E. injection E as <-. intros x [].
        -- assert (NE : Forall (fun l => l <> []) [s :: l]) by (constructor; [discriminate|constructor]).
           destruct (rewrite_exact seqs [s :: l] H (conj G F) NE) as [schs [lens' [E' [_ [V [I _]]]]]].
           unfold extractParts in E'. rewrite E in E'.
      assert (X1 : schs = paired (numbers 0 _) (concat _)) by (apply (f_equal (fun o => match o with Ok p => fst p | _ => [] end)) in E'; symmetry; exact E').
      assert (X2 : lens' = lens) by (apply (f_equal (fun o => match o with Ok p => snd p | _ => [] end)) in E'; symmetry; exact E').
      subst schs lens'. rewrite paired_versions in I.
           intros x Hx. assert (K : In (ll_id x) (map ll_id lens)) by (apply in_map; exact Hx).
           apply I in K as [i [a [b [K1 [K2 K3]]]]]. apply nth_error_In in K1, K2. unfold ll_id in K3.
           destruct K3 as [K3|[K3 _]]; injection K3 as -> ->; auto.
Qed.

Definition empty_lens_seq (l : list sch_src) : lseq := mkSeq (Some l) LAbsent LAbsent LAbsent LAbsent.

Lemma dangling_witness :
  exists seqs schs lens, extractParts (Some seqs) = Ok (schs, lens) /\
    exists x, In x lens /\ ~ In (ll_to x) (map ls_v schs) /\ ll_to x = (0, two64 - 1)%N.
Proof.
  exists [empty_lens_seq []; empty_lens_seq [SrcStruct []]]. eexists. eexists. split; [reflexivity|].
  eexists. split; [left; reflexivity|]. split; [|reflexivity]. cbn. intros [K|[]]. discriminate.
Qed.

(** *** The emitted syntax *)

Lemma mapM_ok {A B} (f : A -> outcome B) l bs : mapM f l = Ok bs <-> Forall2 (fun a b => f a = Ok b) l bs.
Proof.
  revert bs. induction l as [|a l IH]; intros bs; cbn.
  - split; [intros H; injection H as <-; constructor|]. intros H. inversion H. reflexivity.
  - destruct (f a) as [b| | |] eqn:E; cbn; [|split; [discriminate|intros H; inversion H; congruence]..].
    destruct (mapM f l) as [bs'| | |] eqn:E2; cbn.
    + split.
      * intros H. injection H as <-. constructor; [exact E|]. apply IH. reflexivity.
      * intros H. inversion H as [|? b' ? bs'' H1 H2]; subst. apply IH in H2. congruence.
    + split; [discriminate|]. intros H. inversion H as [|? b' ? bs'' H1 H2]; subst. apply IH in H2. discriminate.
    + split; [discriminate|]. intros H. inversion H as [|? b' ? bs'' H1 H2]; subst. apply IH in H2. discriminate.
    + split; [discriminate|]. intros H. inversion H as [|? b' ? bs'' H1 H2]; subst. apply IH in H2. discriminate.
Qed.

(** Legacy parts that become the given new ones. *)
Definition becomes_schema (s : legacySchema) (n : new_schema) : Prop :=
  n_version n = ls_v s /\ ls_raw s = SrcStruct (n_schema n).
Definition becomes_lens (l : legacyLens) (n : new_lens) : Prop :=
  nl_to n = ll_to l /\ nl_from n = ll_from l /\
  ((ll_mapper l = LAbsent /\ nl_result n = BTodo) \/
   exists fs, ll_mapper l = LField (AStruct fs) /\
     nl_result n = BFields (map (fun f => (fst f, rewriteFromTo (snd f))) fs)) /\
  (((ll_lacunas l = LAbsent \/ ll_lacunas l = LNoSource) /\ nl_lacunas n = []) \/
   exists es, ll_lacunas l = LField (AOp "[]" es) /\ nl_lacunas n = map rewriteFromTo es).

Lemma sch_toAST_ok s n : sch_toAST s = Ok n <-> becomes_schema s n.
Proof.
  unfold sch_toAST, becomes_schema. destruct s as [v raw], n as [v' fs]. cbn. destruct raw; cbn.
  - split; [discriminate|]. intros [_ H]. discriminate.
  - split; [intros H; injection H as <- <-; auto|]. intros [-> H]. injection H as ->. reflexivity.
  - split; [discriminate|]. intros [_ H]. discriminate.
Qed.

Lemma mapper_ok l b : mapper_ast l = Ok b <->
  (ll_mapper l = LAbsent /\ b = BTodo) \/ exists fs, ll_mapper l = LField (AStruct fs) /\ b = BFields (rw_fields fs).
Proof.
  unfold mapper_ast. destruct (ll_mapper l) as [| |e|].
  - split; [intros H; injection H as <-; auto|]. intros [[_ ->]|[fs [H _]]]; [reflexivity|discriminate].
  - split; [discriminate|]. intros [[H _]|[fs [H _]]]; discriminate.
  - destruct e; try (split; [discriminate|]; intros [[H _]|[fs [H _]]]; discriminate).
    split; [intros H; injection H as <-; eauto|]. intros [[H _]|[fs [H ->]]]; [discriminate|]. injection H as ->. reflexivity.
  - split; [discriminate|]. intros [[H _]|[fs [H _]]]; discriminate.
Qed.

Lemma lacunas_ok l c : lacunas_ast l = Ok c <->
  ((ll_lacunas l = LAbsent \/ ll_lacunas l = LNoSource) /\ c = []) \/
  exists es, ll_lacunas l = LField (AOp "[]" es) /\ c = map rewriteFromTo es.
Proof.
  unfold lacunas_ast. destruct (ll_lacunas l) as [| |e|].
  - split; [intros H; injection H as <-; auto|]. intros [[_ ->]|[es [H _]]]; [reflexivity|discriminate].
  - split; [intros H; injection H as <-; auto|]. intros [[_ ->]|[es [H _]]]; [reflexivity|discriminate].
  - destruct e as [| | | | |op es]; try (split; [discriminate|]; intros [[[H|H] _]|[es' [H _]]]; discriminate).
    destruct (String.eqb_spec op "[]") as [->|N].
    + split; [intros H; injection H as <-; eauto|]. intros [[[H|H] _]|[es' [H ->]]]; try discriminate.
      injection H as ->. reflexivity.
    + split; [discriminate|]. intros [[[H|H] _]|[es' [H _]]]; try discriminate. injection H as -> _. contradiction.
  - split; [discriminate|]. intros [[[H|H] _]|[es [H _]]]; discriminate.
Qed.

Lemma lens_toAST_ok l n : lens_toAST l = Ok n <-> becomes_lens l n.
Proof.
  unfold lens_toAST, becomes_lens. destruct n as [to from res lac]. cbn [nl_to nl_from nl_result nl_lacunas]. split.
  - destruct (mapper_ast l) as [b| | |] eqn:M; cbn; try discriminate.
    destruct (lacunas_ast l) as [c| | |] eqn:C; cbn; try discriminate.
    intros H. injection H as <- <- <- <-. split; [reflexivity|]. split; [reflexivity|].
    split; [apply mapper_ok; exact M|apply lacunas_ok; exact C].
  - intros [-> [-> [M C]]]. apply mapper_ok in M. apply lacunas_ok in C. rewrite M. cbn. rewrite C. reflexivity.
Qed.

Lemma Forall2_iff {A B} (P Q : A -> B -> Prop) l m : (forall a b, P a b <-> Q a b) -> (Forall2 P l m <-> Forall2 Q l m).
Proof.
  intros H. split; intros K; induction K; constructor; auto; apply H; assumption.
Qed.

Lemma rewrite_output seqs ns nl :
  rewrite_legacy (Some seqs) = Ok (ns, nl) <->
  exists schs lens, extractParts (Some seqs) = Ok (schs, lens) /\
    Forall2 becomes_schema schs ns /\ Forall2 becomes_lens lens nl.
Proof.
  unfold rewrite_legacy. split.
  - destruct (extractParts (Some seqs)) as [[schs lens]| | |]; cbn; try discriminate.
    destruct (mapM sch_toAST schs) as [a| | |] eqn:A; cbn; try discriminate.
    destruct (mapM lens_toAST lens) as [b| | |] eqn:B; cbn; try discriminate.
    intros H. injection H as <- <-. exists schs, lens. split; [reflexivity|].
    apply mapM_ok in A, B. split; [eapply Forall2_iff; [|exact A]|eapply Forall2_iff; [|exact B]]; intros; symmetry.
    + apply sch_toAST_ok.
    + apply lens_toAST_ok.
  - intros [schs [lens [-> [A B]]]]. cbn.
    rewrite (proj2 (mapM_ok sch_toAST schs ns)); [|eapply Forall2_iff; [|exact A]; intros; apply sch_toAST_ok]. cbn.
    rewrite (proj2 (mapM_ok lens_toAST lens nl)); [|eapply Forall2_iff; [|exact B]; intros; apply lens_toAST_ok].
    reflexivity.
Qed.

(** *** References in lens bodies *)

(** [e] mentions the identifier [n]. *)
Inductive mentions (n : string) : aexpr -> Prop :=
| me_id : mentions n (AIdent n)
| me_sel x s : mentions n x -> mentions n (ASel x s)
| me_field l v fs : In (l, v) fs -> mentions n v -> mentions n (AStruct fs)
| me_op a op es : In a es -> mentions n a -> mentions n (AOp op es).

(** Selectors are applied to identifiers only, and [from] and [to] occur below
    selectors only. *)
Inductive direct : aexpr -> Prop :=
| di_id n : n <> "from" -> n <> "to" -> direct (AIdent n)
| di_basic t : direct (ABasic t)
| di_bottom : direct ABottom
| di_sel n s : direct (ASel (AIdent n) s)
| di_struct fs : (forall l v, In (l, v) fs -> direct v) -> direct (AStruct fs)
| di_op op es : (forall a, In a es -> direct a) -> direct (AOp op es).

(** The same expression with other names for [from] and [to]. *)
Inductive renamed : aexpr -> aexpr -> Prop :=
| rn_id n : n <> "from" -> n <> "to" -> renamed (AIdent n) (AIdent n)
| rn_from : renamed (AIdent "from") (ABasic "input")
| rn_to : renamed (AIdent "to") (ABasic "result")
| rn_basic t : renamed (ABasic t) (ABasic t)
| rn_bottom : renamed ABottom ABottom
| rn_sel x y s : renamed x y -> renamed (ASel x s) (ASel y s)
| rn_struct fs gs : Forall2 (fun f g => fst f = fst g /\ renamed (snd f) (snd g)) fs gs -> renamed (AStruct fs) (AStruct gs)
| rn_op op es gs : Forall2 renamed es gs -> renamed (AOp op es) (AOp op gs).

Fixpoint asize (e : aexpr) : nat :=
  match e with
  | ASel x _ => S (asize x)
  | AStruct fs => S (fold_right (fun f k => asize (snd f) + k) 0 fs)
  | AOp _ es => S (fold_right (fun f k => asize f + k) 0 es)
  | _ => 1
  end.

Lemma asize_field l v fs : In (l, v) fs -> asize v < asize (AStruct fs).
Proof.
  cbn. induction fs as [|f r IH]; intros H; [destruct H|]. cbn. destruct H as [->|H]; cbn; [lia|]. specialize (IH H). lia.
Qed.
Lemma asize_arg a op es : In a es -> asize a < asize (AOp op es).
Proof.
  cbn. induction es as [|f r IH]; intros H; [destruct H|]. cbn. destruct H as [->|H]; cbn; [lia|]. specialize (IH H). lia.
Qed.

Lemma rewrite_renamed_n k : forall e, asize e <= k -> direct e -> renamed e (rewriteFromTo e).
Proof.
  induction k as [|k IH]; intros e Hk D; [destruct e; cbn in Hk; lia|].
  destruct D as [n N1 N2|t| |n s|fs H|op es H]; cbn [rewriteFromTo].
  - constructor; assumption.
  - constructor.
  - constructor.
  - unfold from_to. destruct (String.eqb_spec n "from") as [->|N1]; [constructor; constructor|].
    destruct (String.eqb_spec n "to") as [->|N2]; [constructor; constructor|]. constructor. constructor; assumption.
  - constructor. assert (Q : forall l v, In (l, v) fs -> renamed v (rewriteFromTo v)).
    { intros l v K. apply IH; [|apply (H l v K)]. pose proof (asize_field _ _ _ K). lia. }
    clear - Q. induction fs as [|[l v] r IHr]; cbn; constructor.
    + cbn. split; [reflexivity|]. apply (Q l v). left. reflexivity.
    + apply IHr. intros l' v' K. apply (Q l' v'). right. exact K.
  - constructor. assert (Q : forall a, In a es -> renamed a (rewriteFromTo a)).
    { intros a K. apply IH; [|apply (H a K)]. pose proof (asize_arg _ op _ K). lia. }
    clear - Q. induction es as [|a r IHr]; cbn; constructor.
    + apply Q. left. reflexivity.
    + apply IHr. intros a' K. apply Q. right. exact K.
Qed.

Lemma rewrite_direct e : direct e -> renamed e (rewriteFromTo e).
Proof. intros D. apply (rewrite_renamed_n (asize e)); [apply le_n|exact D]. Qed.

Lemma renamed_clean_n k : forall e f, asize e <= k -> renamed e f -> ~ mentions "from" f /\ ~ mentions "to" f.
Proof.
  induction k as [|k IH]; intros e f Hk R; [destruct e; cbn in Hk; lia|].
  destruct R as [n N1 N2| | |t| |x y s R|fs gs R|op es gs R].
  - split; intros M; inversion M; congruence.
  - split; intros M; inversion M.
  - split; intros M; inversion M.
  - split; intros M; inversion M.
  - split; intros M; inversion M.
  - cbn in Hk. destruct (IH x y ltac:(lia) R) as [H1 H2]. split; intros M; inversion M; subst; contradiction.
  - assert (Q : forall l v, In (l, v) gs -> ~ mentions "from" v /\ ~ mentions "to" v).
    { assert (Sz : forall l v, In (l, v) fs -> asize v <= k).
      { intros l v K. pose proof (asize_field _ _ _ K). lia. }
      clear Hk. induction R as [|[l v] [l' v'] fs gs [E R] Rs IHR]; intros l0 v0 K; [destruct K|].
      destruct K as [K|K].
      - injection K as <- <-. apply (IH v); [|exact R]. apply (Sz l). left. reflexivity.
      - apply (IHR (fun l v K => Sz l v (or_intror K)) l0 v0 K). }
    split; intros M; inversion M as [| |l v fs' K1 K2|]; subst; destruct (Q l v K1); contradiction.
  - assert (Q : forall v, In v gs -> ~ mentions "from" v /\ ~ mentions "to" v).
    { assert (Sz : forall v, In v es -> asize v <= k).
      { intros v K. pose proof (asize_arg _ op _ K). lia. }
      clear Hk. induction R as [|v v' es gs R Rs IHR]; intros v0 K; [destruct K|]. destruct K as [<-|K].
      - apply (IH v); [|exact R]. apply Sz. left. reflexivity.
      - apply (IHR (fun v K => Sz v (or_intror K)) v0 K). }
    split; intros M; inversion M as [| | |a op' es' K1 K2]; subst; destruct (Q a K1); contradiction.
Qed.

Lemma rewrite_no_mention e : direct e -> ~ mentions "from" (rewriteFromTo e) /\ ~ mentions "to" (rewriteFromTo e).
Proof.
  intros D. apply (renamed_clean_n (asize e) e); [apply le_n|]. apply rewrite_direct. exact D.
Qed.

(** The same expression, in which some of the references have been given other names. *)
Inductive partly_renamed : aexpr -> aexpr -> Prop :=
| pr_same e : partly_renamed e e
| pr_from : partly_renamed (AIdent "from") (ABasic "input")
| pr_to : partly_renamed (AIdent "to") (ABasic "result")
| pr_sel x y s : partly_renamed x y -> partly_renamed (ASel x s) (ASel y s)
| pr_struct fs gs : Forall2 (fun f g => fst f = fst g /\ partly_renamed (snd f) (snd g)) fs gs -> partly_renamed (AStruct fs) (AStruct gs)
| pr_op op es gs : Forall2 partly_renamed es gs -> partly_renamed (AOp op es) (AOp op gs).

(** Where a reference survives: bare, below a chain of selectors, or below a selector
    applied to anything that is not an identifier. *)
Inductive survives (n : string) : aexpr -> Prop :=
| su_bare : survives n (AIdent n)
| su_other s : n <> "from" -> n <> "to" -> survives n (ASel (AIdent n) s)
| su_deep x s : (forall k, x <> AIdent k) -> mentions n x -> survives n (ASel x s)
| su_field l v fs : In (l, v) fs -> survives n v -> survives n (AStruct fs)
| su_op a op es : In a es -> survives n a -> survives n (AOp op es).

Lemma rewrite_partly_n k : forall e, asize e <= k -> partly_renamed e (rewriteFromTo e).
Proof.
  induction k as [|k IH]; intros e Hk; [destruct e; cbn in Hk; lia|].
  destruct e as [n|t| |x s|fs|op es]; cbn [rewriteFromTo]; try apply pr_same.
  - destruct x as [n|t| |y s'|fs|op es]; try apply pr_same. unfold from_to.
    destruct (String.eqb_spec n "from") as [->|N1]; [constructor; constructor|].
    destruct (String.eqb_spec n "to") as [->|N2]; constructor; constructor.
  - constructor. assert (Q : forall l v, In (l, v) fs -> partly_renamed v (rewriteFromTo v)).
    { intros l v K. apply IH. pose proof (asize_field _ _ _ K). lia. }
    clear - Q. induction fs as [|[l v] r IHr]; cbn; constructor.
    + cbn. split; [reflexivity|]. apply (Q l v). left. reflexivity.
    + apply IHr. intros l' v' K. apply (Q l' v'). right. exact K.
  - constructor. assert (Q : forall a, In a es -> partly_renamed a (rewriteFromTo a)).
    { intros a K. apply IH. pose proof (asize_arg _ op _ K). lia. }
    clear - Q. induction es as [|a r IHr]; cbn; constructor.
    + apply Q. left. reflexivity.
    + apply IHr. intros a' K. apply Q. right. exact K.
Qed.

Lemma rewrite_survives_n n k : forall e, asize e <= k -> mentions n (rewriteFromTo e) <-> survives n e.
Proof.
  induction k as [|k IH]; intros e Hk; [destruct e; cbn in Hk; lia|].
  destruct e as [m|t| |x s|fs|op es]; cbn [rewriteFromTo].
  - split; intros M; inversion M; constructor.
  - split; intros M; inversion M.
  - split; intros M; inversion M.
  - assert (D : (exists m, x = AIdent m) \/ (forall m, x <> AIdent m)) by (destruct x; [left; eauto|right; discriminate..]).
    destruct D as [[m ->]|D].
    + unfold from_to. destruct (String.eqb_spec m "from") as [->|N1]; [|destruct (String.eqb_spec m "to") as [->|N2]].
      * split; intros M; [inversion M as [|? ? M'| |]; subst; inversion M'|inversion M; subst; congruence].
      * split; intros M; [inversion M as [|? ? M'| |]; subst; inversion M'|inversion M; subst; congruence].
      * split; intros M.
        -- inversion M as [|? ? M'| |]; subst. inversion M'; subst. constructor; assumption.
        -- inversion M; subst; [constructor; constructor|].
           match goal with K : forall k, _ <> _ |- _ => exfalso; exact (K _ eq_refl) end.
    + replace (match x with AIdent n0 => match from_to n0 with Some x0 => ASel x0 s | None => ASel (AIdent n0) s end | _ => ASel x s end)
        with (ASel x s) by (destruct x; [exfalso; exact (D _ eq_refl)|reflexivity..]).
      split; intros M.
      * inversion M as [|? ? M'| |]; subst. apply su_deep; assumption.
      * inversion M; subst; [exfalso; exact (D _ eq_refl)|]. constructor. assumption.
  - split; intros M.
    + inversion M as [| |l v gs K1 K2|]; subst. apply in_map_iff in K1 as [[l' v'] [E K]]. cbn in E. injection E as <- <-.
      eapply su_field; [exact K|]. apply IH; [|exact K2]. pose proof (asize_field _ _ _ K). lia.
    + inversion M as [| | |l v gs K1 K2|]; subst. apply (me_field _ l (rewriteFromTo v)); [apply in_map_iff; exists (l, v); auto|].
      apply IH; [|exact K2]. pose proof (asize_field _ _ _ K1). lia.
  - split; intros M.
    + inversion M as [| | |a op' gs K1 K2]; subst. apply in_map_iff in K1 as [a' [<- K]].
      eapply su_op; [exact K|]. apply IH; [|exact K2]. pose proof (asize_arg _ op _ K). lia.
    + inversion M as [| | | |a op' gs K1 K2]; subst. eapply me_op; [apply (in_map _ _ _ K1)|].
      apply IH; [|exact K2]. pose proof (asize_arg _ op _ K1). lia.
Qed.

Lemma rewrite_any e : partly_renamed e (rewriteFromTo e) /\ forall n, mentions n (rewriteFromTo e) <-> survives n e.
Proof.
  split; [apply (rewrite_partly_n (asize e)); apply le_n|]. intros n. apply (rewrite_survives_n n (asize e)). apply le_n.
Qed.

(** [from.a.b] stays as it is. *)
Lemma rewrite_misses_chain : exists e, (forall n, mentions n e -> n = "from") /\ mentions "from" (rewriteFromTo e).
Proof.
  exists (AStruct [("x", ASel (ASel (AIdent "from") "a") "b")]). split.
  - intros n M. inversion M as [| |l v fs K1 K2|]; subst. destruct K1 as [K1|[]]. injection K1 as <- <-.
    inversion K2 as [|x s K3| |]; subst. inversion K3 as [|x s K4| |]; subst. inversion K4. reflexivity.
  - cbn. eapply me_field; [left; reflexivity|]. constructor. constructor. constructor.
Qed.
