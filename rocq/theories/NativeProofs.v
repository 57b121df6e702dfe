(** Positions computed by the CUE library ([_counts], [_basis], [_flatidx]). *)
From Verif Require Import Prelude Version VersionProofs Search SearchProofs
  ValidateErr Native Split Lineage LineageProofs WalkProofs GoLensProofs BindFacts Toy.
From Coq Require Import Sorting.Sorted Arith ZifyBool ZifyN ZifyNat.
Local Open Scope Z_scope.

(** Chain form of [dense]: each version is the next minor or the next major. *)
Fixpoint chain (prev : version) (rest : list version) : Prop :=
  match rest with
  | [] => True
  | v :: r => (v = (fst prev, snd prev + 1)%N \/ v = (fst prev + 1, 0)%N) /\ chain v r
  end.

Lemma dense_chain v r : dense (v :: r) -> v = (0, 0)%N /\ chain v r.
Proof.
  intros [H1 H2]. split; [cbn in H1; congruence|]. clear H1. revert v H2.
  induction r as [|w r IH]; intros v H; cbn; [exact I|]. split.
  - apply H. exists 0%nat. auto.
  - apply IH. intros a b Hab. apply H. apply adjacent_cons; exact Hab.
Qed.

Lemma pos_spec rest : forall i prev, chain prev rest -> forall j v,
  nth_error rest j = Some v ->
  (fst prev <= fst v)%N /\
  if (fst v =? fst prev)%N then i + 1 + Z.of_nat j - Z.of_N (snd v) = i - Z.of_N (snd prev)
  else nth_error (pos_from i prev rest) (N.to_nat (fst v - fst prev - 1)) =
       Some (i + 1 + Z.of_nat j - Z.of_N (snd v)).
Proof.
  induction rest as [|w r IH]; intros i prev C j v Hj; [destruct j; discriminate|].
  destruct C as [Hw C]. cbn [pos_from]. destruct j as [|j].
  - cbn in Hj. injection Hj as <-. destruct Hw as [->| ->]; cbn [fst snd].
    + split; [lia|]. rewrite N.eqb_refl. lia.
    + split; [lia|]. destruct (N.eqb_spec (fst prev + 1) (fst prev)); [lia|].
      replace (fst prev <? fst prev + 1)%N with true by lia.
      replace (N.to_nat (fst prev + 1 - fst prev - 1)) with 0%nat by lia. cbn. f_equal. lia.
  - cbn in Hj. destruct (IH (i + 1) w C j v Hj) as [Hle Hp].
    destruct Hw as [->| ->]; cbn [fst snd] in *.
    + split; [lia|]. replace (fst prev <? fst prev)%N with false by lia. cbn [app].
      destruct (N.eqb_spec (fst v) (fst prev)); [lia|].
      rewrite Hp. f_equal. lia.
    + split; [lia|]. destruct (N.eqb_spec (fst v) (fst prev)); [lia|].
      replace (fst prev <? fst prev + 1)%N with true by lia. cbn [app].
      destruct (N.eqb_spec (fst v) (fst prev + 1)) as [E|E].
      * replace (N.to_nat (fst v - fst prev - 1)) with 0%nat by lia. cbn. f_equal. lia.
      * replace (N.to_nat (fst v - fst prev - 1)) with (S (N.to_nat (fst v - (fst prev + 1) - 1))) by lia.
        cbn. rewrite Hp. f_equal. lia.
Qed.

Lemma pos_length rest : forall i prev, chain prev rest ->
  exists v, In v (prev :: rest) /\ fst v = (fst prev + N.of_nat (length (pos_from i prev rest)))%N.
Proof.
  induction rest as [|w r IH]; intros i prev C.
  - exists prev. split; [left; reflexivity|]. cbn. lia.
  - destruct C as [Hw C]. destruct (IH (i + 1) w C) as [v [Hin Hv]]. exists v.
    split; [right; exact Hin|]. cbn [pos_from]. rewrite app_length.
    destruct Hw as [->| ->]; cbn [fst snd] in *.
    + replace (fst prev <? fst prev)%N with false by lia. cbn [length]. lia.
    + replace (fst prev <? fst prev + 1)%N with true by lia. cbn [length]. lia.
Qed.

Lemma pos_bounds rest : forall i prev,
  Forall (fun p => i < p <= i + Z.of_nat (length rest)) (pos_from i prev rest) /\
  StronglySorted Z.lt (pos_from i prev rest).
Proof.
  induction rest as [|w r IH]; intros i prev; cbn [pos_from length]; [split; constructor|].
  destruct (IH (i + 1) w) as [B S].
  assert (B' : Forall (fun p => i < p <= i + Z.of_nat (Datatypes.S (length r))) (pos_from (i + 1) w r)).
  { eapply Forall_impl; [|exact B]. cbn; intros; lia. }
  destruct (_ <? _)%N; cbn [app]; split; auto.
  - constructor; [lia|exact B'].
  - constructor; [exact S|]. eapply Forall_impl; [|exact B]. cbn; intros; lia.
Qed.

Lemma basis_length acc cs : length (basis_from acc cs) = (length cs - 1)%nat.
Proof.
  revert acc. induction cs as [|c r IH]; intros acc; [reflexivity|]. cbn [basis_from]. destruct r as [|d r]; [reflexivity|].
  cbn [length]. rewrite IH. cbn [length]. lia.
Qed.

Lemma counts_length ps : forall seen total last, length (counts_from seen ps total last) = S (length ps).
Proof. induction ps as [|p r IH]; intros; cbn; [reflexivity|]. rewrite IH. reflexivity. Qed.

Lemma basis_counts_step acc seen p r total last :
  basis_from acc (counts_from seen (p :: r) total last)
  = (acc + (p - seen)) :: basis_from (acc + (p - seen)) (counts_from (seen + p) r total p).
Proof. cbn [counts_from basis_from]. destruct r; reflexivity. Qed.

(** The entries never exceed the positions. *)
Lemma basis_bound total ps : forall acc seen last j p, Forall (fun q => 0 < q) ps -> 0 <= seen ->
  nth_error ps j = Some p ->
  exists b, nth_error (basis_from acc (counts_from seen ps total last)) j = Some b /\ b <= p + acc - seen.
Proof.
  induction ps as [|q r IH]; intros acc seen last j p F G H; [destruct j; discriminate|].
  rewrite basis_counts_step. inversion F as [|? ? F1 F2]; subst. destruct j as [|j].
  - cbn in H. injection H as ->. exists (acc + (p - seen)). split; [reflexivity|lia].
  - cbn in H. destruct (IH (acc + (q - seen)) (seen + q) q j p F2 ltac:(lia) H) as [b [B1 B2]].
    exists b. split; [exact B1|lia].
Qed.

Lemma basis_counts vs v r : vs = v :: r -> forall j p, nth_error (pos_from 0 v r) j = Some p ->
  exists b, nth_error (basis (counts vs)) (S j) = Some b /\ ((j < 2)%nat -> b = p) /\ ((2 <= j)%nat -> b < p).
Proof.
  intros -> j p H. destruct r as [|w r]; [destruct j; discriminate|].
  destruct (pos_bounds (w :: r) 0 v) as [B _]. cbv beta iota delta [counts].
  assert (F : Forall (fun q => 0 < q) (pos_from 0 v (w :: r))) by (eapply Forall_impl; [|exact B]; cbn; lia).
  remember (pos_from 0 v (w :: r)) as ps. clear Heqps B. unfold basis. cbn [nth_error].
  set (total := Z.of_nat _). clearbody total.
  destruct ps as [|p1 ps]; [destruct j; discriminate|]. rewrite basis_counts_step. inversion F as [|? ? F1 F2]; subst.
  destruct j as [|j]; [cbn in *; injection H as ->; eexists; split; [reflexivity|lia]|]. cbn [nth_error] in *.
  destruct ps as [|p2 ps]; [destruct j; discriminate|]. rewrite basis_counts_step. inversion F2 as [|? ? F3 F4]; subst.
  destruct j as [|j]; [cbn in *; injection H as ->; eexists; split; [reflexivity|lia]|]. cbn [nth_error] in *.
  destruct (basis_bound total ps (0 + (p1 - 0) + (p2 - (0 + p1))) (0 + p1 + p2) p2 j p F4 ltac:(lia) H) as [b [B1 B2]].
  exists b. split; [exact B1|]. lia.
Qed.

Lemma native_position vs : dense vs -> forall i v, nth_error vs i = Some v ->
  exists z, flatidx vs v = Some z /\ ((fst v <= 2)%N -> z = Z.of_nat i) /\ ((3 <= fst v)%N -> z < Z.of_nat i).
Proof.
  intros D i v Hi. destruct vs as [|v0 r]; [destruct i; discriminate|].
  apply dense_chain in D as [-> C]. unfold flatidx. destruct i as [|j].
  - cbn in Hi. injection Hi as <-. exists 0. split; [reflexivity|]. cbn [fst]. split; intros; lia.
  - cbn in Hi. destruct (pos_spec r 0 (0, 0)%N C j v Hi) as [_ P]. cbn [fst snd] in P.
    destruct (N.eqb_spec (fst v) 0) as [E|E].
    + rewrite E. exists (Z.of_nat (S j)). split; [cbn; f_equal; lia|]. split; intros; lia.
    + destruct (basis_counts _ (0, 0)%N r eq_refl _ _ P) as [b [B1 [B2 B3]]].
      replace (N.to_nat (fst v)) with (S (N.to_nat (fst v - 0 - 1))) by lia. rewrite B1.
      eexists. split; [reflexivity|]. split; intros H; [rewrite B2 by lia; lia|].
      specialize (B3 ltac:(lia)). lia.
Qed.

Lemma native_counts_ok vs : dense vs -> (forall v, In v vs -> (fst v <= 2)%N) ->
  Z.of_nat (length vs) <= max64 -> counts_ok vs = true.
Proof.
  intros D M L. destruct vs as [|v0 r]; [destruct D as [D _]; discriminate|].
  apply dense_chain in D as [-> C].
  destruct (pos_length r 0 (0, 0)%N C) as [vm [Hin Hvm]].
  specialize (M vm Hin) as Hm. cbn [fst] in Hvm.
  assert (Hlen : (length (pos_from 0 (0, 0)%N r) <= 2)%nat) by lia.
  unfold counts_ok. destruct (pos_bounds r 0 (0, 0)%N) as [B S]. cbn [length] in L. unfold max64 in L.
  destruct r as [|w r']; [reflexivity|]. cbv beta iota delta [counts].
  remember (pos_from 0 (0, 0)%N (w :: r')) as ps. clear Heqps.
  cbn [length] in *.
  destruct ps as [|p1 [|p2 [|p3 ps]]]; cbn [length] in *; try lia; cbn [counts_from forallb].
  - unfold max64. rewrite andb_true_r. lia.
  - inversion B as [|? ? B1 B2]; subst. unfold max64. rewrite andb_true_r. lia.
  - inversion B as [|? ? B1 B2]; subst. inversion B2 as [|? ? B3 _]; subst.
    inversion S as [|? ? _ S2]; subst. inversion S2 as [|? ? S3 _]; subst.
    unfold max64. rewrite andb_true_r. lia.
Qed.

(** How many versions of major [m] a list has. *)
Definition of_major (m : N) (vs : list version) : Z :=
  Z.of_nat (length (filter (fun v => (fst v =? m)%N) vs)).

Fixpoint gaps (last : Z) (ps : list Z) (total : Z) : list Z :=
  match ps with
  | [] => [total - last]
  | p :: r => (p - last) :: gaps p r total
  end.

Lemma of_major_cons m v vs : of_major m (v :: vs) = (if (fst v =? m)%N then 1 else 0) + of_major m vs.
Proof. unfold of_major. cbn. destruct (_ =? _)%N; cbn [length]; lia. Qed.

Lemma chain_le r : forall w, chain w r -> forall v, In v r -> (fst w <= fst v)%N.
Proof.
  induction r as [|x r IH]; intros w C v; [intros []|]. destruct C as [Hx C]. intros [->|I].
  - destruct Hx as [-> | ->]; cbn; lia.
  - specialize (IH x C v I). destruct Hx as [-> | ->]; cbn in IH; lia.
Qed.

Lemma of_major_none m vs : (forall v, In v vs -> fst v <> m) -> of_major m vs = 0.
Proof.
  intros H. induction vs as [|v r IH]; [reflexivity|]. rewrite of_major_cons, IH by (intros x I; apply H; right; exact I).
  destruct (N.eqb_spec (fst v) m) as [E|E]; [|reflexivity]. exfalso. apply (H v); [left; reflexivity|exact E].
Qed.

Lemma gaps_spec rest : forall i prev start, chain prev rest -> forall k z,
  nth_error (gaps start (pos_from i prev rest) (i + 1 + Z.of_nat (length rest))) k = Some z ->
  z = of_major (fst prev + N.of_nat k) (prev :: rest) + (if Nat.eqb k 0 then i - start else 0).
Proof.
  induction rest as [|w r IH]; intros i prev start C k z H.
  - cbn in H. destruct k as [|[|k]]; try discriminate. injection H as <-. rewrite of_major_cons.
    replace (fst prev =? fst prev + N.of_nat 0)%N with true by lia. change (of_major (fst prev + N.of_nat 0) []) with 0. cbn [Nat.eqb length]. lia.
  - destruct C as [Hw C]. cbn [pos_from length] in H. rewrite of_major_cons.
    replace (i + 1 + Z.of_nat (S (length r))) with (i + 1 + 1 + Z.of_nat (length r)) in H by lia.
    destruct Hw as [->| ->]; cbn [fst snd] in *.
    + replace (fst prev <? fst prev)%N with false in H by lia. cbn [app] in H.
      rewrite (IH (i + 1) _ start C k z H). cbn [fst].
      destruct k as [|k]; cbn [Nat.eqb]; [replace (fst prev =? fst prev + N.of_nat 0)%N with true by lia; lia|].
      replace (fst prev =? fst prev + N.of_nat (S k))%N with false by lia. lia.
    + replace (fst prev <? fst prev + 1)%N with true in H by lia. cbn [app gaps] in H.
      destruct k as [|k]; cbn [nth_error] in H.
      * injection H as <-. replace (fst prev =? fst prev + N.of_nat 0)%N with true by lia. cbn [Nat.eqb].
        rewrite of_major_none; [lia|]. intros v I E. destruct I as [<-|I]; [cbn in E; lia|].
        pose proof (chain_le r _ C v I) as K. cbn in K. lia.
      * rewrite (IH (i + 1) _ (i + 1) C k z H). cbn [fst].
        replace (fst prev =? fst prev + N.of_nat (S k))%N with false by lia.
        replace (fst prev + 1 + N.of_nat k)%N with (fst prev + N.of_nat (S k))%N by lia.
        cbn [Nat.eqb]. destruct (Nat.eqb k 0); lia.
Qed.

Lemma gaps_length ps : forall last total, length (gaps last ps total) = S (length ps).
Proof. induction ps as [|p r IH]; intros; cbn; [reflexivity|]. rewrite IH. reflexivity. Qed.

Lemma native_counts vs : dense vs -> (2 <= length vs)%nat -> (forall v, In v vs -> (fst v <= 2)%N) ->
  forall m c, nth_error (counts vs) (N.to_nat m) = c ->
    ((exists v, In v vs /\ fst v = m) -> c = Some (of_major m vs)) /\
    ((forall v, In v vs -> fst v <> m) -> c = None).
Proof.
  intros D L M m c Hc. destruct vs as [|v0 r]; [cbn in L; lia|].
  apply dense_chain in D as [-> C].
  destruct (pos_length r 0 (0, 0)%N C) as [vm [Hin Hvm]].
  specialize (M vm Hin) as Hm. cbn [fst] in Hvm.
  assert (E : counts ((0, 0)%N :: r) = gaps 0 (pos_from 0 (0, 0)%N r) (0 + 1 + Z.of_nat (length r))).
  { destruct r as [|w r]; [cbn in L; lia|]. unfold counts.
    assert (T : Z.of_nat (@length version ((0, 0)%N :: w :: r)) = 0 + 1 + Z.of_nat (@length version (w :: r))).
    { change (@length version ((0, 0)%N :: w :: r)) with (S (@length version (w :: r))). rewrite Nat2Z.inj_succ. lia. }
    rewrite T. destruct (pos_from 0 (0, 0)%N (w :: r)) as [|p1 [|p2 [|p3 ps]]]; cbn [length] in Hvm; try lia; cbn [counts_from gaps]; try reflexivity. }
  assert (Hc' : nth_error (gaps 0 (pos_from 0 (0, 0)%N r) (0 + 1 + Z.of_nat (length r))) (N.to_nat m) = c).
  { rewrite <- Hc. f_equal. symmetry. exact E. }
  clear Hc. rename Hc' into Hc. split.
  - intros [v [Iv <-]].
    assert (Hb : (N.to_nat (fst v) < length (gaps 0 (pos_from 0 (0, 0)%N r) (0 + 1 + Z.of_nat (length r))))%nat).
    { rewrite gaps_length. destruct Iv as [<-|Iv]; [cbn; lia|]. apply In_nth_error in Iv as [j Hj].
      destruct (pos_spec r 0 (0, 0)%N C j v Hj) as [_ P]. cbn [fst] in P. destruct (N.eqb_spec (fst v) 0) as [Z|Z]; [lia|].
      assert (K : nth_error (pos_from 0 (0, 0)%N r) (N.to_nat (fst v - 0 - 1)) <> None) by congruence.
      apply nth_error_Some in K. lia. }
    apply nth_error_Some in Hb. destruct (nth_error _ _) as [z|] eqn:F in Hb; [|contradiction]. rewrite F in Hc.
    apply (gaps_spec r 0 (0, 0)%N 0 C) in F. subst. f_equal.
    replace (fst (0, 0) + N.of_nat (N.to_nat (fst v)))%N with (fst v) by (cbn; lia).
    destruct (Nat.eqb _ 0); lia.
  - intros Ne. destruct c as [z|]; [|reflexivity]. exfalso.
    assert (K : nth_error (gaps 0 (pos_from 0 (0, 0)%N r) (0 + 1 + Z.of_nat (length r))) (N.to_nat m) <> None) by congruence.
    apply nth_error_Some in K. rewrite gaps_length in K.
    clear - C K Ne.
    assert (G : forall r i prev k, chain prev r -> (k < S (length (pos_from i prev r)))%nat ->
              exists v, In v (prev :: r) /\ fst v = (fst prev + N.of_nat k)%N).
    { clear. induction r as [|w r IH]; intros i prev k C K.
      - cbn in K. exists prev. split; [left; reflexivity|]. replace k with 0%nat by lia. lia.
      - destruct C as [Hw C]. cbn [pos_from] in K. rewrite app_length in K.
        destruct Hw as [->| ->]; cbn [fst snd] in *.
        + replace (fst prev <? fst prev)%N with false in K by lia. cbn [length] in K.
          destruct (IH (i + 1) _ k C K) as [v [I E]]. exists v. split; [right; exact I|exact E].
        + replace (fst prev <? fst prev + 1)%N with true in K by lia. cbn [length] in K.
          destruct k as [|k]; [exists prev; split; [left; reflexivity|lia]|].
          destruct (IH (i + 1) _ k C) as [v [I E]]; [lia|]. exists v. split; [right; exact I|]. rewrite E. cbn. lia. }
    destruct (G r 0 (0, 0)%N (N.to_nat m) C K) as [v [I E]]. apply (Ne v I). rewrite E. cbn. lia.
Qed.

Lemma native_positions vs : dense vs ->
  (forall i v, nth_error vs i = Some v -> (fst v <= 2)%N -> flatidx vs v = Some (Z.of_nat i)) /\
  ((forall v, In v vs -> (fst v <= 2)%N) -> Z.of_nat (length vs) <= max64 -> counts_ok vs = true).
Proof.
  intros D. split; [|apply native_counts_ok; exact D]. intros i v H M.
  destruct (native_position vs D i v H) as [z [-> [E _]]]. rewrite (E M). reflexivity.
Qed.

(** The third entry of [_counts] is negative. *)
Lemma native_negative vs : dense vs -> (exists v, In v vs /\ fst v = 3%N) -> of_major 2 vs < of_major 0 vs ->
  counts_ok vs = false.
Proof.
  intros D [v [Iv Ev]] Lt. destruct vs as [|v0 r]; [destruct Iv|].
  apply dense_chain in D as [-> C]. destruct Iv as [<-|Iv]; [discriminate|].
  apply In_nth_error in Iv as [j Hj]. destruct (pos_spec r 0 (0, 0)%N C j v Hj) as [_ P]. rewrite Ev in P. cbn [fst] in P.
  replace (3 =? 0)%N with false in P by reflexivity.
  replace (N.to_nat (3 - 0 - 1)) with 2%nat in P by reflexivity.
  pose proof (gaps_spec r 0 (0, 0)%N 0 C) as G. unfold counts_ok.
  destruct r as [|w r]; [destruct j; discriminate|]. cbv beta iota delta [counts].
  set (total := Z.of_nat (@length version _)). clearbody total.
  destruct (pos_from 0 (0, 0)%N (w :: r)) as [|p1 [|p2 [|p3 ps]]]; try discriminate P.
  pose proof (G 0%nat _ eq_refl) as G0. pose proof (G 2%nat _ eq_refl) as G2. cbn [Nat.eqb] in G0, G2.
  change (fst (0, 0) + N.of_nat 0)%N with 0%N in G0. change (fst (0, 0) + N.of_nat 2)%N with 2%N in G2.
  cbn [counts_from forallb]. replace (0 <=? p3 - (0 + p1 + p2)) with false by lia.
  cbn [andb]. rewrite !andb_false_r. reflexivity.
Qed.

Lemma native_wrong vs : dense vs ->
  (forall i v, nth_error vs i = Some v -> (3 <= fst v)%N -> exists z, flatidx vs v = Some z /\ z < Z.of_nat i) /\
  ((exists v, In v vs /\ fst v = 3%N) -> of_major 2 vs < of_major 0 vs -> counts_ok vs = false).
Proof.
  intros D. split; [|apply native_negative; exact D]. intros i v H M.
  destruct (native_position vs D i v H) as [z [E [_ L]]]. exists z. split; [exact E|exact (L M)].
Qed.

(** With more majors the library computes wrong positions or rejects the
    lineage. *)
Lemma native_rejects : exists (vs : list version),
  dense vs /\ counts_ok vs = false /\
  exists (V : Type) (ev : evaluator V) lindef e raw es x,
    raw_uni ev lindef e = Ok (raw, raw) /\ ev_schemas ev raw = Some es /\
    map entry_v es = map Some vs /\ schemas_rule ev false es /\ ev_final ev raw = true /\
    BindLineage ev 0 false lindef e [] = Err x /\ err_is x ErrInvalidLineage = true.
Proof.
  exists [(0, 0); (0, 1); (1, 0); (2, 0); (3, 0)]%N. split.
  { split; [reflexivity|]. intros a b [i [H1 H2]].
    destruct i as [|[|[|[|[|i]]]]]; cbn in H1, H2; try discriminate; injection H1 as <-; injection H2 as <-; cbn; auto. }
  split; [reflexivity|].
  set (t := tlin [(0, 0, [1]); (0, 1, [1; 2]); (1, 0, [3]); (2, 0, [4]); (3, 0, [5])]%N []).
  exists tv, toy, TLinDef, (Atom t), t. do 2 eexists.
  split; [reflexivity|]. split; [vm_compute; reflexivity|]. split; [reflexivity|].
  split; [|split; [reflexivity|split; vm_compute; reflexivity]].
  apply (proj1 (check_schemas_rule toy (mkCfg false []) _)). eexists. vm_compute. reflexivity.
Qed.

Lemma native_wrong_index : exists (V : Type) (ev : evaluator V) (l : lineage V) i s,
  bound ev l /\ dense (map s_v (all_schemas l)) /\
  nth_error (all_schemas l) i = Some s /\
  flatidx (map s_v (all_schemas l)) (s_v s) <> Some (Z.of_nat i).
Proof.
  destruct (tbind (tlin [(0, 0, [1]); (1, 0, [2]); (2, 0, [3]); (3, 0, [4])]%N []) []) as [l|e| |] eqn:E;
    try (vm_compute in E; discriminate).
  exists tv, toy, l, 3%nat. pose proof (tbind_bound _ _ _ E) as B. vm_compute in E. injection E as <-.
  eexists. split; [exact B|]. split; [|split; [reflexivity|vm_compute; discriminate]].
  split; [reflexivity|]. intros a b [i [H1 H2]].
  destruct i as [|[|[|[|i]]]]; cbn in H1, H2; try discriminate; injection H1 as <-; injection H2 as <-; cbn; auto.
Qed.
