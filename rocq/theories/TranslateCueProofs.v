(** Translation with CUE lenses. *)
From Verif Require Import Prelude Version VersionProofs Search SearchProofs
  ValidateErr Native Split Lineage LineageProofs WalkProofs GoLensProofs BindFacts WalkFacts
  NativeProofs Translate TranslateGoProofs Toy.
From Coq Require Import Sorting.Sorted Arith ZifyBool ZifyN ZifyNat.

(** *** Lists *)
Lemma sorted_same {A} (R : A -> A -> Prop) :
  (forall a, ~ R a a) -> (forall a b, R a b -> R b a -> False) ->
  forall l1 l2, StronglySorted R l1 -> StronglySorted R l2 ->
  (forall x, In x l1 <-> In x l2) -> l1 = l2.
Proof.
  intros Irr As. induction l1 as [|x l1 IH]; intros l2 S1 S2 M.
  - destruct l2 as [|y l2]; [reflexivity|]. exfalso. apply (M y). left; reflexivity.
  - destruct l2 as [|y l2]; [exfalso; apply (M x); left; reflexivity|].
    inversion S1 as [|? ? S1' F1]; subst. inversion S2 as [|? ? S2' F2]; subst.
    rewrite Forall_forall in F1, F2.
    assert (E : x = y).
    { destruct (proj1 (M x) (or_introl eq_refl)) as [E|Hx]; [auto|].
      destruct (proj2 (M y) (or_introl eq_refl)) as [E|Hy]; [auto|].
      exfalso. apply (As x y); auto. }
    subst y. f_equal. apply IH; auto. intros z. split; intros Hz.
    + destruct (proj1 (M z) (or_intror Hz)) as [E|K]; [|exact K]. subst z. exfalso. apply (Irr x); auto.
    + destruct (proj2 (M z) (or_intror Hz)) as [E|K]; [|exact K]. subst z. exfalso. apply (Irr x); auto.
Qed.

Lemma sorted_filter {A} (R : A -> A -> Prop) p l : StronglySorted R l -> StronglySorted R (filter p l).
Proof.
  induction 1 as [|x l S IH F]; cbn; [constructor|]. destruct (p x); [|exact IH].
  constructor; [exact IH|]. rewrite Forall_forall in *. intros y Hy. apply filter_In in Hy. apply F, Hy.
Qed.

Lemma filter_map_comm {A B} (f : A -> B) (p : A -> bool) (q : B -> bool) l :
  (forall x, In x l -> q (f x) = p x) -> map f (filter p l) = filter q (map f l).
Proof.
  induction l as [|x l IH]; intros H; cbn; [reflexivity|].
  rewrite H by (left; reflexivity). destruct (p x); cbn; rewrite IH; auto; intros; apply H; right; auto.
Qed.

Definition lens_lt (a b : version * version) : Prop :=
  vlt (fst a) (fst b) \/ (fst a = fst b /\ vlt (snd a) (snd b)).

Lemma lens_lt_irrefl a : ~ lens_lt a a.
Proof. intros [H|[_ H]]; exact (vlt_irrefl _ H). Qed.
Lemma lens_lt_asym a b : lens_lt a b -> lens_lt b a -> False.
Proof.
  unfold lens_lt, vlt. destruct a as [[a1 a2] [a3 a4]], b as [[b1 b2] [b3 b4]]; cbn.
  intros [H|[H1 H2]] [K|[K1 K2]]; try injection H1 as -> ->; try injection K1 as -> ->; lia.
Qed.

Lemma lens_order_strict tf : StronglySorted lens_order tf -> NoDup tf -> StronglySorted lens_lt tf.
Proof.
  induction 1 as [|x l S IH F]; intros ND; [constructor|]. inversion ND as [|? ? N1 N2]; subst.
  constructor; [apply IH; exact N2|]. rewrite Forall_forall in *. intros y Hy.
  destruct (F y Hy) as [H|[H [K|K]]]; [left; exact H|right; auto|].
  exfalso. apply N1. replace x with y; [exact Hy|]. destruct x, y; cbn in *; congruence.
Qed.

(** *** The entailed lenses, backward and forward *)
Fixpoint back_list (vs : list version) : list (version * version) :=
  match vs with
  | v :: r => match r with w :: _ => (v, w) :: back_list r | [] => [] end
  | [] => []
  end.

Fixpoint fwd_list (prev : version) (rest : list version) : list (version * version) :=
  match rest with
  | [] => []
  | v :: r => (if (fst prev <? fst v)%N then [(v, prev)] else []) ++ fwd_list v r
  end.

Lemma back_list_nth vs : forall k a b,
  nth_error vs k = Some a -> nth_error vs (S k) = Some b -> nth_error (back_list vs) k = Some (a, b).
Proof.
  induction vs as [|v r IH]; intros k a b Ha Hb; [destruct k; discriminate|].
  destruct r as [|w r]; [destruct k as [|[|k]]; discriminate|].
  destruct k as [|k]; [cbn in *; congruence|]. cbn [back_list nth_error]. apply IH; assumption.
Qed.

Lemma back_list_in vs t f : In (t, f) (back_list vs) <-> adjacent vs t f.
Proof.
  induction vs as [|v r IH]; [split; [intros []|intros [k [H _]]; destruct k; discriminate]|].
  destruct r as [|w r].
  - split; [intros []|]. intros [k [H1 H2]]. destruct k as [|[|k]]; discriminate.
  - change (back_list (v :: w :: r)) with ((v, w) :: back_list (w :: r)). cbn [In]. rewrite IH. split.
    + intros [E|H]; [injection E as <- <-; exists 0; auto|apply adjacent_cons; exact H].
    + intros [k [H1 H2]]. destruct k as [|k]; [left; cbn in *; congruence|right; exists k; auto].
Qed.

Lemma back_list_sorted vs : strict_vs vs -> StronglySorted lens_lt (back_list vs).
Proof.
  induction 1 as [|v r S IH F]; [constructor|]. destruct r as [|w r]; [constructor|].
  change (back_list (v :: w :: r)) with ((v, w) :: back_list (w :: r)).
  constructor; [exact IH|]. rewrite Forall_forall in *. intros [t f] H.
  apply back_list_in in H as [k [H _]]. left. cbn. apply F. eapply nth_error_In; exact H.
Qed.

Lemma fwd_list_in rest : forall prev t f,
  In (t, f) (fwd_list prev rest) <-> adjacent (prev :: rest) f t /\ (fst f < fst t)%N.
Proof.
  induction rest as [|v r IH]; intros prev t f.
  - split; [intros []|]. intros [[k [H1 H2]] _]. destruct k as [|[|k]]; discriminate.
  - cbn [fwd_list]. rewrite in_app_iff, IH. split.
    + intros [H|[H1 H2]].
      * destruct (N.ltb_spec (fst prev) (fst v)); [|destruct H]. destruct H as [E|[]].
        injection E as <- <-. split; [exists 0; auto|assumption].
      * split; [apply adjacent_cons; exact H1|exact H2].
    + intros [[k [H1 H2]] H3]. destruct k as [|k].
      * left. cbn in H1, H2. injection H1 as <-. injection H2 as <-.
        destruct (N.ltb_spec (fst prev) (fst v)); [left; reflexivity|lia].
      * right. split; [exists k; auto|exact H3].
Qed.

Lemma fwd_list_sorted rest : forall prev, strict_vs (prev :: rest) ->
  StronglySorted lens_lt (fwd_list prev rest).
Proof.
  induction rest as [|v r IH]; intros prev H; [constructor|]. cbn [fwd_list].
  inversion H as [|? ? H1 H2]; subst. destruct (_ <? _)%N; cbn [app]; [|apply IH; exact H1].
  constructor; [apply IH; exact H1|]. rewrite Forall_forall. intros [t f] K.
  apply fwd_list_in in K as [[k [_ K]] _]. left. cbn [fst]. cbn in K.
  inversion H1 as [|? ? _ F]; subst. rewrite Forall_forall in F. apply F. eapply nth_error_In; exact K.
Qed.

Lemma chain_ge rest : forall prev, chain prev rest -> forall v, In v (prev :: rest) -> (fst prev <= fst v)%N.
Proof.
  induction rest as [|w r IH]; intros prev C v [<-|H]; try lia; [destruct H|].
  destruct C as [Hw C]. pose proof (IH w C v H). destruct Hw as [->| ->]; cbn in *; lia.
Qed.

Lemma fwd_list_nth rest : forall prev, chain prev rest -> forall j a b,
  nth_error (prev :: rest) j = Some a -> nth_error (prev :: rest) (S j) = Some b ->
  (fst a < fst b)%N ->
  nth_error (fwd_list prev rest) (N.to_nat (fst b - fst prev - 1)) = Some (b, a).
Proof.
  induction rest as [|v r IH]; intros prev C j a b Ha Hb Hlt; [destruct j as [|[|j]]; discriminate|].
  destruct C as [Hv C]. cbn [fwd_list]. destruct j as [|j].
  - cbn in Ha, Hb. injection Ha as <-. injection Hb as <-.
    destruct (N.ltb_spec (fst prev) (fst v)); [|lia].
    destruct Hv as [->| ->]; cbn [fst] in *; [lia|].
    replace (N.to_nat (fst prev + 1 - fst prev - 1)) with 0 by lia. reflexivity.
  - cbn in Ha, Hb. specialize (IH v C j a b Ha Hb Hlt).
    assert (fst v <= fst a)%N by (apply (chain_ge r v C); eapply nth_error_In; exact Ha).
    destruct Hv as [->| ->]; cbn [fst] in *.
    + replace (fst prev <? fst prev)%N with false by lia. exact IH.
    + replace (fst prev <? fst prev + 1)%N with true by lia. cbn [app].
      replace (N.to_nat (fst b - fst prev - 1)) with (S (N.to_nat (fst b - (fst prev + 1) - 1))) by lia.
      exact IH.
Qed.

Lemma step_lacunas_cases lac : (lac = [] /\ step_lacunas lac = Some []) \/ (lac <> [] /\ step_lacunas lac = None).
Proof. destruct lac; [left|right]; split; reflexivity || discriminate. Qed.

Section T.
Context {V : Type}.
Variable ev : evaluator V.
Variable rm : N -> instance V -> schema V -> outcome (option (instance V)).

(** *** Specification *)

(** Translating [d] from the [k]-th to the [n]-th schema of [l] one neighbour at a
    time with the declared CUE lenses; [None] when some intermediate value is an
    error or some lens emits a lacuna. *)
Inductive cue_trans (l : lineage V) (n : nat) : nat -> V -> option V -> Prop :=
| ct_done d : cue_trans l n n d (Some d)
| ct_minor k d s s' o :
    k < n -> nth_error (all_schemas l) k = Some s -> nth_error (all_schemas l) (S k) = Some s' ->
    fst (s_v s) = fst (s_v s') ->
    advance l n (S k) (ev_embed ev d (sd_def (s_sd s'))) o -> cue_trans l n k d o
| ct_lens k d s s' c o :
    k <> n -> nth_error (all_schemas l) k = Some s ->
    nth_error (all_schemas l) (toward k n) = Some s' ->
    n < k \/ fst (s_v s) <> fst (s_v s') ->
    In c (l_lenses l) -> cl_from c = Some (s_v s) -> cl_to c = Some (s_v s') ->
    ev_lacunas ev (cl_val c) d = [] ->
    advance l n (toward k n) (ev_embed ev (ev_lens_result ev (cl_val c) d) (sd_def (s_sd s'))) o ->
    cue_trans l n k d o
| ct_lacuna k d s s' c :
    k <> n -> nth_error (all_schemas l) k = Some s ->
    nth_error (all_schemas l) (toward k n) = Some s' ->
    n < k \/ fst (s_v s) <> fst (s_v s') ->
    In c (l_lenses l) -> cl_from c = Some (s_v s) -> cl_to c = Some (s_v s') ->
    ev_lacunas ev (cl_val c) d <> [] ->
    cue_trans l n k d None
with advance (l : lineage V) (n : nat) : nat -> V -> option V -> Prop :=
| adv_err k d : ev_bottom ev d = true -> advance l n k d None
| adv_ok k d o : ev_bottom ev d = false -> cue_trans l n k d o -> advance l n k d o.

Scheme cue_trans_ind2 := Minimality for cue_trans Sort Prop
with advance_ind2 := Minimality for advance Sort Prop.
Combined Scheme cue_adv_ind from cue_trans_ind2, advance_ind2.

(** Exactly the entailed CUE lenses are declared, each once. *)
Definition lens_ids (l : lineage V) : list (option version * option version) :=
  map (fun c => (cl_from c, cl_to c)) (l_lenses l).
Definition exact_cue_lenses (l : lineage V) : Prop :=
  NoDup (lens_ids l) /\
  forall f t, In (Some f, Some t) (lens_ids l) <-> entailed (map s_v (all_schemas l)) (f, t).

(** *** Facts *)
Lemma nodup_map_inj {A B} (f : A -> B) l x y : NoDup (map f l) -> In x l -> In y l -> f x = f y -> x = y.
Proof.
  induction l as [|z l IH]; intros ND Hx Hy E; [destruct Hx|]. cbn in ND. inversion ND as [|? ? N1 N2]; subst.
  destruct Hx as [->|Hx], Hy as [->|Hy]; auto.
  - exfalso. apply N1. rewrite E. apply in_map; exact Hy.
  - exfalso. apply N1. rewrite <- E. apply in_map; exact Hx.
Qed.

Lemma cue_trans_fun l n : NoDup (lens_ids l) ->
  (forall k d o, cue_trans l n k d o -> forall o', cue_trans l n k d o' -> o' = o) /\
  (forall k d o, advance l n k d o -> forall o', advance l n k d o' -> o' = o).
Proof.
  intros ND. apply cue_adv_ind.
  - intros d o' H. inversion H; subst; try lia. reflexivity.
  - intros k d s s' o Hk H1 H2 Hm _ IH o' H.
    inversion H as [|? ? t t' ? Kk K1 K2 Km KG|? ? t t' c ? Kk K1 K2 Km K3 K4 K5 KL K6|? ? t t' c Kk K1 K2 Km K3 K4 K5 KL]; subst; try lia.
    + apply IH. congruence.
    + exfalso. unfold toward in K2. destruct (Nat.ltb_spec n k); [lia|]. destruct Km; [lia|]. congruence.
    + exfalso. unfold toward in K2. destruct (Nat.ltb_spec n k); [lia|]. destruct Km; [lia|]. congruence.
  - intros k d s s' c o Hk H1 H2 Hm H3 H4 H5 HL _ IH o' H.
    inversion H as [|? ? t t' ? Kk K1 K2 Km KG|? ? t t' c2 ? Kk K1 K2 Km K3 K4 K5 KL K6|? ? t t' c2 Kk K1 K2 Km K3 K4 K5 KL]; subst; try lia.
    + exfalso. unfold toward in H2. destruct (Nat.ltb_spec n k); [lia|]. destruct Hm; [lia|]. congruence.
    + assert (s = t) by congruence. assert (s' = t') by congruence. subst t t'.
      assert (c2 = c). { apply (nodup_map_inj (fun c => (cl_from c, cl_to c)) (l_lenses l)); auto. congruence. }
      subst c2. apply IH. exact K6.
    + assert (s = t) by congruence. assert (s' = t') by congruence. subst t t'.
      assert (c2 = c). { apply (nodup_map_inj (fun c => (cl_from c, cl_to c)) (l_lenses l)); auto. congruence. }
      subst c2. contradiction.
  - intros k d s s' c Hk H1 H2 Hm H3 H4 H5 HL o' H.
    inversion H as [|? ? t t' ? Kk K1 K2 Km KG|? ? t t' c2 ? Kk K1 K2 Km K3 K4 K5 KL K6|? ? t t' c2 Kk K1 K2 Km K3 K4 K5 KL]; subst; try lia.
    + exfalso. unfold toward in H2. destruct (Nat.ltb_spec n k); [lia|]. destruct Hm; [lia|]. congruence.
    + assert (s = t) by congruence. assert (s' = t') by congruence. subst t t'.
      assert (c2 = c). { apply (nodup_map_inj (fun c => (cl_from c, cl_to c)) (l_lenses l)); auto. congruence. }
      subst c2. contradiction.
    + reflexivity.
  - intros k d Hb o' H. inversion H; subst; [reflexivity|congruence].
  - intros k d o Hb _ IH o' H. inversion H; subst; [congruence|apply IH; assumption].
Qed.

(** Lenses of a lineage bound without Go lenses are decodable and sorted. *)
Lemma bound_lenses_sorted l : bound ev l -> l_lensmap l = [] -> strict_from_zero l ->
  exists tf, map (fun c => (cl_to c, cl_from c)) (l_lenses l) =
             map (fun p => (Some (fst p), Some (snd p))) tf /\
    StronglySorted lens_order tf.
Proof.
  intros B E SZ. assert (W := bound_wf ev l B). destruct B as [id [fv [lindef [e [opts B]]]]].
  destruct (flat_map lenses_of opts) as [|x xs] eqn:F.
  - apply bind_inv in B. destruct B as [es [lm [_ [_ [_ [_ [_ [_ [HL [_ [HE _]]]]]]]]]]].
    unfold checkLensesOrder in HL. rewrite make_cfg_spec in HL. cbn [implenses] in HL. rewrite F in HL.
    rewrite HE. destruct (ev_lenses ev (l_uni l)) as [ls|]; [|exists []; split; [reflexivity|constructor]].
    apply bind_ok in HL as [[] [H _]]. apply check_cue_lenses_ok in H. destruct H as [tf [H1 H2]]. exists tf.
    split; [exact H1|exact H2].
  - exfalso. destruct (bound_go ev id fv lindef e opts l B SZ) as [_ [_ K]]; [congruence|]. congruence.
Qed.

Section L.
Variable l : lineage V.
Hypothesis B : bound ev l.
Hypothesis LM : l_lensmap l = [].
Hypothesis D : dense (map s_v (all_schemas l)).
Hypothesis X : exact_cue_lenses l.

Let W : wf l := bound_wf ev l B.
Let vs := map s_v (all_schemas l).

Lemma vs_allv : vs = l_allv l.
Proof. apply all_schemas_versions, W. Qed.

Lemma dense_strict us : dense us -> strict_vs us /\ nth_error us 0 = Some synv0.
Proof.
  intros Du. split; [|apply Du]. destruct Du as [_ Du].
  apply Sorted_StronglySorted; [intros a b c; apply vlt_trans|].
  clear -Du. induction us as [|v us IH]; constructor.
  - apply IH. intros a b H. apply Du. apply adjacent_cons; exact H.
  - destruct us as [|w us]; constructor. unfold vlt.
    destruct (Du v w) as [->| ->]; [exists 0; auto| |]; cbn; lia.
Qed.

Lemma vs_strict : strict_vs vs.
Proof. apply dense_strict, D. Qed.

Lemma vs_sfz : strict_from_zero l.
Proof.
  split; [apply vs_strict|]. destruct (first_ok l W) as [s [H1 H2]]. exists s. split; [exact H1|].
  destruct D as [D0 _]. rewrite nth_error_map, H2 in D0. injection D0 as D0. exact D0.
Qed.

(** Positions are right up to major 2 and too small from major 3 on. *)
Lemma vs_index k s : nth_error (all_schemas l) k = Some s ->
  exists z, flatidx (l_allv l) (s_v s) = Some z /\
    ((fst (s_v s) <= 2)%N -> z = Z.of_nat k) /\ ((3 <= fst (s_v s))%N -> (z < Z.of_nat k)%Z).
Proof.
  intros H. rewrite <- vs_allv. apply (native_position vs D). unfold vs. rewrite nth_error_map, H. reflexivity.
Qed.

Lemma vs_pos k s : nth_error (all_schemas l) k = Some s -> (fst (s_v s) <= 2)%N ->
  flatidx (l_allv l) (s_v s) = Some (Z.of_nat k).
Proof. intros H M. destruct (vs_index k s H) as [z [-> [E _]]]. rewrite (E M). reflexivity. Qed.

Lemma vs_major j k s t : j <= k -> nth_error (all_schemas l) j = Some s -> nth_error (all_schemas l) k = Some t ->
  (fst (s_v s) <= fst (s_v t))%N.
Proof.
  intros Le Hs Ht. destruct (Nat.eq_dec j k) as [->|Ne]; [rewrite Hs in Ht; injection Ht as ->; lia|].
  assert (H : vlt (s_v s) (s_v t)).
  { apply (strict_nth _ vs_strict j k); [lia| |]; unfold vs; rewrite nth_error_map; [rewrite Hs|rewrite Ht]; reflexivity. }
  unfold vlt in H. lia.
Qed.

Lemma entailed_cases f t : entailed vs (f, t) <->
  adjacent vs t f \/ (adjacent vs f t /\ (fst f < fst t)%N).
Proof.
  split.
  - intros [i [a [b [H1 [H2 [E|[E E']]]]]]]; injection E as -> ->.
    + left. exists i. auto.
    + right. split; [exists i; auto|].
      pose proof (strict_nth _ vs_strict i (S i) _ _ (Nat.lt_succ_diag_r i) H1 H2). unfold vlt in H. lia.
  - intros [[i [H1 H2]]|[[i [H1 H2]] Hlt]]; exists i.
    + exists t, f. auto.
    + exists f, t. repeat split; auto. right. split; [reflexivity|lia].
Qed.

Lemma adj_le a b : adjacent vs a b -> (fst a <= fst b)%N.
Proof.
  intros [i [H1 H2]]. pose proof (strict_nth _ vs_strict i (S i) _ _ (Nat.lt_succ_diag_r i) H1 H2).
  unfold vlt in H. lia.
Qed.

Definition dec (c : cue_lens V) : option version * option version := (cl_to c, cl_from c).
Definition somes (p : version * version) : option version * option version := (Some (fst p), Some (snd p)).

Lemma lens_lists :
  map dec (backwardLenses l) = map somes (back_list vs) /\
  (forall v r, vs = v :: r -> map dec (forwardLenses l) = map somes (fwd_list v r)).
Proof.
  destruct (bound_lenses_sorted l B LM vs_sfz) as [tf [E S]]. fold dec somes in E.
  change (fun c : cue_lens V => (cl_to c, cl_from c)) with dec in E.
  change (fun p : version * version => (Some (fst p), Some (snd p))) with somes in E.
  destruct X as [ND XX].
  assert (NDtf : NoDup tf).
  { assert (K : map (fun p => (snd p, fst p)) (map dec (l_lenses l)) = lens_ids l).
    { rewrite map_map. apply map_ext. intros; reflexivity. }
    rewrite <- K, E in ND. apply NoDup_map_inv in ND. apply NoDup_map_inv in ND. exact ND. }
  assert (Mem : forall t f, In (t, f) tf <-> entailed vs (f, t)).
  { intros t f. unfold vs. rewrite <- XX. unfold lens_ids.
    assert (K : map (fun c => (cl_from c, cl_to c)) (l_lenses l) = map (fun p => (Some (snd p), Some (fst p))) tf).
    { transitivity (map (fun p => (snd p, fst p)) (map dec (l_lenses l))).
      - rewrite map_map. apply map_ext. intros; reflexivity.
      - rewrite E, map_map. apply map_ext. intros; reflexivity. }
    rewrite K, in_map_iff. split.
    - intros H. exists (t, f). auto.
    - intros [[t' f'] [H1 H2]]. cbn in H1. injection H1 as -> ->. exact H2. }
  pose proof (lens_order_strict tf S NDtf) as St.
  assert (Dec : forall c, In c (l_lenses l) -> exists t f, cl_to c = Some t /\ cl_from c = Some f).
  { intros c Hc. apply (in_map dec) in Hc. rewrite E in Hc. apply in_map_iff in Hc as [[t f] [H _]].
    unfold somes, dec in H. injection H as <- <-. eauto. }
  split.
  - unfold backwardLenses.
    rewrite (filter_map_comm dec lens_bwd
               (fun p => match p with (Some t, Some f) => (fst t <=? fst f)%N | _ => false end)).
    2:{ intros c Hc. unfold dec, lens_bwd. destruct (Dec c Hc) as [t [f [-> ->]]]. reflexivity. }
    rewrite E. rewrite <- (filter_map_comm somes (fun p => (fst (fst p) <=? fst (snd p))%N)) by (intros; reflexivity).
    f_equal. apply (sorted_same lens_lt lens_lt_irrefl lens_lt_asym).
    + apply sorted_filter; exact St.
    + apply back_list_sorted, vs_strict.
    + intros [t f]. rewrite filter_In, back_list_in, Mem, entailed_cases. cbn [fst snd]. split.
      * intros [[H|[H1 H2]] H3]; [exact H|lia].
      * intros H. split; [left; exact H|]. pose proof (adj_le _ _ H). lia.
  - intros v r Hv. unfold forwardLenses.
    rewrite (filter_map_comm dec lens_fwd
               (fun p => match p with (Some t, Some f) => (fst f <? fst t)%N | _ => false end)).
    2:{ intros c Hc. unfold dec, lens_fwd. destruct (Dec c Hc) as [t [f [-> ->]]]. reflexivity. }
    rewrite E. rewrite <- (filter_map_comm somes (fun p => (fst (snd p) <? fst (fst p))%N)) by (intros; reflexivity).
    f_equal. apply (sorted_same lens_lt lens_lt_irrefl lens_lt_asym).
    + apply sorted_filter; exact St.
    + apply fwd_list_sorted. rewrite <- Hv. apply vs_strict.
    + intros [t f]. rewrite filter_In, fwd_list_in, Mem, entailed_cases, <- Hv. cbn [fst snd]. split.
      * intros [[H|[H1 H2]] H3]; [|auto]. pose proof (adj_le _ _ H). lia.
      * intros [H1 H2]. split; [right; auto|lia].
Qed.

Lemma nth_map_inv {A C} (f : A -> C) l0 k y : nth_error (map f l0) k = Some y ->
  exists x, nth_error l0 k = Some x /\ f x = y.
Proof. rewrite nth_error_map. destruct (nth_error l0 k); cbn; intros H; [injection H as <-; eauto|discriminate]. Qed.

Lemma back_lens k s s' :
  nth_error (all_schemas l) k = Some s' -> nth_error (all_schemas l) (S k) = Some s ->
  exists c, nth_error (backwardLenses l) k = Some c /\ In c (l_lenses l) /\
    cl_from c = Some (s_v s) /\ cl_to c = Some (s_v s').
Proof.
  intros H1 H2. destruct lens_lists as [E _].
  assert (K : nth_error (back_list vs) k = Some (s_v s', s_v s)).
  { apply back_list_nth; unfold vs; rewrite nth_error_map; [rewrite H1|rewrite H2]; reflexivity. }
  assert (K' : nth_error (map dec (backwardLenses l)) k = Some (somes (s_v s', s_v s))).
  { rewrite E, nth_error_map, K. reflexivity. }
  apply nth_map_inv in K' as [c [K1 K2]]. exists c. split; [exact K1|].
  unfold dec, somes in K2. cbn in K2. injection K2 as K3 K4. repeat split; auto.
  apply nth_error_In in K1. unfold backwardLenses in K1. apply filter_In in K1. apply K1.
Qed.

Lemma fwd_lens k s s' :
  nth_error (all_schemas l) k = Some s -> nth_error (all_schemas l) (S k) = Some s' ->
  (fst (s_v s) < fst (s_v s'))%N ->
  exists c, list_at (forwardLenses l) (Z.of_N (fst (s_v s')) - 1) = Some c /\ In c (l_lenses l) /\
    cl_from c = Some (s_v s) /\ cl_to c = Some (s_v s').
Proof.
  intros H1 H2 Hlt. destruct lens_lists as [_ E].
  assert (Dd := D). fold vs in Dd.
  destruct vs as [|v r] eqn:Ev; [destruct Dd as [Dd _]; discriminate|].
  specialize (E v r eq_refl). apply dense_chain in Dd as [E0 C].
  assert (Hk : nth_error (v :: r) k = Some (s_v s)) by (rewrite <- Ev; unfold vs; rewrite nth_error_map, H1; reflexivity).
  assert (Hk' : nth_error (v :: r) (S k) = Some (s_v s')) by (rewrite <- Ev; unfold vs; rewrite nth_error_map, H2; reflexivity).
  pose proof (fwd_list_nth r v C k (s_v s) (s_v s') Hk Hk' Hlt) as K. rewrite E0 in K at 2. cbn [fst] in K.
  assert (K' : nth_error (map dec (forwardLenses l)) (N.to_nat (fst (s_v s') - 0 - 1)) = Some (somes (s_v s', s_v s))).
  { rewrite E, nth_error_map, K. reflexivity. }
  apply nth_map_inv in K' as [c [K1 K2]]. exists c.
  split.
  { unfold list_at. destruct (Z.ltb_spec (Z.of_N (fst (s_v s')) - 1) 0); [lia|].
    replace (Z.to_nat (Z.of_N (fst (s_v s')) - 1)) with (N.to_nat (fst (s_v s') - 0 - 1)) by lia. exact K1. }
  unfold dec, somes in K2. cbn in K2. injection K2 as K3 K4. repeat split; auto.
  apply nth_error_In in K1. unfold forwardLenses in K1. apply filter_In in K1. apply K1.
Qed.

Lemma list_at_nat {A} (xs : list A) k : list_at xs (Z.of_nat k) = nth_error xs k.
Proof. unfold list_at. destruct (Z.ltb_spec (Z.of_nat k) 0); [lia|]. rewrite Nat2Z.id. reflexivity. Qed.

Lemma nth_sch k s : nth_error (all_schemas l) k = Some s -> nth_error (l_sch l) k = Some (s_sd s).
Proof. intros H. apply all_schemas_at in H. apply sch_at_ok in H as [sd [H ->]]. exact H. Qed.

Lemma cue_result_cons d t ts : cue_result d (t :: ts) = cue_result (V:=V) (ts_result t) ts.
Proof.
  unfold cue_result. revert t. induction ts as [|u ts IH]; intros t; [reflexivity|].
  cbn [last]. destruct ts; [reflexivity|]. rewrite (IH t), (IH u). reflexivity.
Qed.

Definition down (k d : nat) : list Z := map (fun j => (Z.of_nat k - 1 - Z.of_nat j)%Z) (seq 0 d).
Lemma down_S k d : down (S k) (S d) = Z.of_nat k :: down k d.
Proof.
  unfold down. cbn [seq map]. f_equal; [lia|]. rewrite <- seq_shift, map_map. apply map_ext. intros; lia.
Qed.

Definition steps_spec (n k : nat) (d : V) (o : option (list (tstep (V:=V)))) : Prop :=
  match o with
  | None => cue_trans l n k d None
  | Some ts => cue_trans l n k d (Some (cue_result d ts))
  end.

Lemma run_back n : forall m k s d, k = n + m -> nth_error (all_schemas l) k = Some s ->
  (fst (s_v s) <= 2)%N ->
  steps_spec n k d (run_steps (back_step ev l) d (s_v s) (down k m)).
Proof.
  induction m as [|m IH]; intros k s d Hk Hs Ms.
  - replace k with n by lia. constructor.
  - destruct k as [|k]; [lia|]. rewrite down_S. cbn [run_steps].
    assert (L : S k < length (all_schemas l)) by (apply nth_error_Some; congruence).
    destruct (nth_error (all_schemas l) k) as [s'|] eqn:Hs'; [|apply nth_error_None in Hs'; lia].
    assert (Ms' : (fst (s_v s') <= 2)%N) by (pose proof (vs_major k (S k) s' s ltac:(lia) Hs' Hs); lia).
    destruct (back_lens k s s' Hs' Hs) as [c [C1 [C2 [C3 C4]]]].
    unfold back_step at 1. rewrite list_at_nat, (nth_sch k s' Hs'). change (sd_v (s_sd s')) with (s_v s').
    rewrite (vs_pos k s' Hs' Ms'), list_at_nat, C1.
    unfold apply_lens. rewrite C3, C4, !veqb_refl. cbn [andb].
    assert (TW : toward (S k) n = k) by (unfold toward; destruct (Nat.ltb_spec n (S k)); lia).
    assert (L0 : ev_lacunas ev (cl_val c) d <> [] -> cue_trans l n (S k) d None).
    { intros H. apply (ct_lacuna l n (S k) d s s' c); try rewrite TW; auto; lia. }
    destruct (step_lacunas_cases (ev_lacunas ev (cl_val c) d)) as [[EL ES]|[EL ES]]; rewrite ES.
    2:{ destruct (ev_bottom ev _); cbn; apply L0; exact EL. }
    assert (G : forall o, advance l n k (ev_embed ev (ev_lens_result ev (cl_val c) d) (sd_def (s_sd s'))) o ->
              cue_trans l n (S k) d o).
    { intros o H. apply (ct_lens l n (S k) d s s' c o); try rewrite TW; auto; lia. }
    destruct (ev_bottom ev _) eqn:Bt.
    + cbn. apply G. apply adv_err; exact Bt.
    + cbn [ts_result ts_to]. specialize (IH k s' (ev_embed ev (ev_lens_result ev (cl_val c) d) (sd_def (s_sd s'))) ltac:(lia) Hs' Ms').
      destruct (run_steps _ _ _ (down k m)) as [ts|]; cbn [steps_spec] in *.
      * rewrite cue_result_cons. cbn [ts_result]. apply G. apply adv_ok; auto.
      * apply G. apply adv_ok; auto.
Qed.

Lemma run_fwd n : forall m k s d, n = k + m -> n < length (all_schemas l) ->
  nth_error (all_schemas l) k = Some s ->
  steps_spec n k d (run_steps (fwd_step ev l) d (s_v s) (firstn m (skipn (S k) (l_sch l)))).
Proof.
  induction m as [|m IH]; intros k s d Hk Hn Hs.
  - assert (k = n) by lia. subst k. rewrite firstn_O. cbn. constructor.
  - destruct (nth_error (all_schemas l) (S k)) as [s'|] eqn:Hs'; [|apply nth_error_None in Hs'; lia].
    rewrite (skipn_nth _ _ _ (nth_sch _ _ Hs')). cbn [firstn run_steps].
    assert (TW : toward k n = S k) by (unfold toward; destruct (Nat.ltb_spec n k); lia).
    assert (Hlt : vlt (s_v s) (s_v s')).
    { apply (strict_nth _ vs_strict k (S k)); [lia| |]; unfold vs; rewrite nth_error_map; [rewrite Hs|rewrite Hs']; reflexivity. }
    unfold fwd_step at 1. change (sd_v (s_sd s')) with (s_v s').
    destruct (N.eqb_spec (fst (s_v s)) (fst (s_v s'))) as [E|E].
    + assert (G : forall o, advance l n (S k) (ev_embed ev d (sd_def (s_sd s'))) o -> cue_trans l n k d o).
      { intros o H. apply (ct_minor l n k d s s' o); auto. lia. }
      destruct (ev_bottom ev _) eqn:Bt.
      * cbn. apply G. apply adv_err; exact Bt.
      * cbn [ts_result ts_to]. specialize (IH (S k) s' (ev_embed ev d (sd_def (s_sd s'))) ltac:(lia) Hn Hs').
        destruct (run_steps _ _ _ _) as [ts|]; cbn [steps_spec] in *.
        -- rewrite cue_result_cons. cbn [ts_result]. apply G. apply adv_ok; auto.
        -- apply G. apply adv_ok; auto.
    + assert (HL : (fst (s_v s) < fst (s_v s'))%N) by (unfold vlt in Hlt; lia).
      destruct (N.ltb_spec (fst (s_v s)) (fst (s_v s'))); [|lia].
      destruct (fwd_lens k s s' Hs Hs' HL) as [c [C1 [C2 [C3 C4]]]]. rewrite C1.
      unfold apply_lens. rewrite C3, C4, !veqb_refl. cbn [andb].
      assert (L0 : ev_lacunas ev (cl_val c) d <> [] -> cue_trans l n k d None).
      { intros K. apply (ct_lacuna l n k d s s' c); try rewrite TW; auto; lia. }
      destruct (step_lacunas_cases (ev_lacunas ev (cl_val c) d)) as [[EL ES]|[EL ES]]; rewrite ES.
      2:{ destruct (ev_bottom ev _); cbn; apply L0; exact EL. }
      assert (G : forall o, advance l n (S k) (ev_embed ev (ev_lens_result ev (cl_val c) d) (sd_def (s_sd s'))) o ->
                cue_trans l n k d o).
      { intros o K. apply (ct_lens l n k d s s' c o); try rewrite TW; auto; lia. }
      destruct (ev_bottom ev _) eqn:Bt.
      * cbn. apply G. apply adv_err; exact Bt.
      * cbn [ts_result ts_to]. specialize (IH (S k) s' (ev_embed ev (ev_lens_result ev (cl_val c) d) (sd_def (s_sd s'))) ltac:(lia) Hn Hs').
        destruct (run_steps _ _ _ _) as [ts|]; cbn [steps_spec] in *.
        -- rewrite cue_result_cons. cbn [ts_result]. apply G. apply adv_ok; auto.
        -- apply G. apply adv_ok; auto.
Qed.

Lemma cue_steps_spec k n s t d :
  nth_error (all_schemas l) k = Some s -> nth_error (all_schemas l) n = Some t ->
  k = n \/ (fst (s_v s) <= 2)%N /\ (fst (s_v t) <= 2)%N ->
  steps_spec n k d (cue_steps ev l d (s_v s) (s_v t)).
Proof.
  intros Hk Hn Hm. unfold cue_steps. rewrite cmpSV_spec.
  assert (St : strict_vs (l_allv l)) by (rewrite <- vs_allv; apply vs_strict).
  assert (Lk : k < length (all_schemas l)) by (apply nth_error_Some; congruence).
  assert (Ln : n < length (all_schemas l)) by (apply nth_error_Some; congruence).
  destruct (vless (s_v s) (s_v t)) eqn:L1.
  - apply (strict_lt l k n s t W St Hk Hn) in L1.
    destruct Hm as [Hm|[M1 M2]]; [lia|]. rewrite (vs_pos k s Hk M1), (vs_pos n t Hn M2).
    unfold list_slice. rewrite all_schemas_length in Lk, Ln.
    replace ((Z.of_nat k + 1 <? 0) || (Z.of_nat n + 1 <? Z.of_nat k + 1)
       || (Z.of_nat (length (l_sch l)) <? Z.of_nat k + 1)
       || (Z.of_nat (length (l_sch l)) <? Z.of_nat n + 1))%Z with false by lia.
    replace (Z.to_nat (Z.of_nat n + 1 - (Z.of_nat k + 1))) with (n - k) by lia.
    replace (Z.to_nat (Z.of_nat k + 1)) with (S k) by lia.
    apply run_fwd; auto; [lia|]. rewrite all_schemas_length. exact Ln.
  - destruct (vless (s_v t) (s_v s)) eqn:L2.
    + apply (strict_lt l n k t s W St Hn Hk) in L2.
      destruct Hm as [Hm|[M1 M2]]; [lia|]. rewrite (vs_pos k s Hk M1), (vs_pos n t Hn M2).
      unfold list_range_down.
      replace (Z.of_nat k - 1 <? Z.of_nat n - 1)%Z with false by lia.
      replace (Z.to_nat (Z.of_nat k - 1 - (Z.of_nat n - 1))) with (k - n) by lia.
      apply run_back; auto. lia.
    + assert (k = n).
      { destruct (Nat.lt_trichotomy k n) as [H|[H|H]]; auto.
        - apply (strict_lt l k n s t W St Hk Hn) in H. congruence.
        - apply (strict_lt l n k t s W St Hn Hk) in H. congruence. }
      subst n. constructor.
Qed.

Lemma lin_schema_nth n t : nth_error (all_schemas l) n = Some t -> lin_schema l (s_v t) = Ok t.
Proof.
  intros Hn. assert (St : strict_vs (l_allv l)) by (rewrite <- vs_allv; apply vs_strict).
  apply all_schemas_at in Hn. pose proof (sch_at_v l W _ _ Hn) as Hv. apply nth_error_In in Hv.
  unfold lin_schema. pose proof (proj2 (synvExists_true _ _ (wf_sorted l W)) Hv) as E. rewrite E. cbn [bind negb].
  exact (schema_v_strict l W St n t Hn).
Qed.

Lemma translate_cue i k n t fuel :
  i_valid i = true -> ev_struct ev (i_raw i) = true ->
  nth_error (all_schemas l) k = Some (i_sch i) -> nth_error (all_schemas l) n = Some t ->
  k = n \/ (fst (s_v (i_sch i)) <= 2)%N /\ (fst (s_v t) <= 2)%N ->
  exists o, cue_trans l n k (i_raw i) o /\
    (forall o', cue_trans l n k (i_raw i) o' -> o' = o) /\
    translate ev rm (S fuel) i (s_v t) =
      match o with
      | None => Err (mkErr [ErrInvalidLens] "")
      | Some d =>
          if ev_json_ok ev (ev_default ev d) then
            match validate ev t (ev_default ev d) with
            | Ok r => Ok (r, [])
            | Err e => Err (mkErr (ErrLensResultIsInvalidData :: e_marks e) (e_text e))
            | Panic => Panic
            | OutOfFuel => OutOfFuel
            end
          else Err (mkErr [ErrLensIncomplete] "lens produced a non-concrete result")
      end.
Proof.
  intros Hv Hst Hk Hn Hm.
  assert (Hl : s_lin (i_sch i) = l).
  { apply nth_error_In in Hk. exact (proj2 (in_all_version l _ W Hk)). }
  cbn [translate]. rewrite Hv, Hl, LM. cbn [negb]. unfold translateCUE. rewrite Hl, (lin_schema_nth n t Hn), Hst.
  cbn [negb]. pose proof (cue_steps_spec k n (i_sch i) t (i_raw i) Hk Hn Hm) as Sp.
  assert (U : forall o, cue_trans l n k (i_raw i) o -> forall o', cue_trans l n k (i_raw i) o' -> o' = o)
    by (intros; apply (proj1 (cue_trans_fun l n (proj1 X)) k (i_raw i)); assumption).
  destruct (cue_steps ev l (i_raw i) (s_v (i_sch i)) (s_v t)) as [ts|]; cbn [steps_spec] in Sp.
  - eexists. split; [exact Sp|]. split; [apply U; exact Sp|]. cbv iota.
    destruct (ev_json_ok ev _); cbn [negb]; [|reflexivity].
    destruct (validate ev t _); reflexivity.
  - eexists. split; [exact Sp|]. split; [apply U; exact Sp|]. reflexivity.
Qed.

(** Upwards from majors 0-2 into major 3 or more: the lenses are applied only up
    to the schema at the position computed, which lies before the target. *)
Lemma translate_short i k n t fuel :
  i_valid i = true -> ev_struct ev (i_raw i) = true ->
  nth_error (all_schemas l) k = Some (i_sch i) -> nth_error (all_schemas l) n = Some t ->
  (fst (s_v (i_sch i)) <= 2)%N -> (3 <= fst (s_v t))%N ->
  exists z, flatidx (l_allv l) (s_v t) = Some z /\ (z < Z.of_nat n)%Z /\
    ((z < Z.of_nat k)%Z -> translate ev rm (S fuel) i (s_v t) = Err (mkErr [ErrInvalidLens] "")) /\
    forall m, z = Z.of_nat m -> k <= m ->
    exists o, cue_trans l m k (i_raw i) o /\
    translate ev rm (S fuel) i (s_v t) =
      match o with
      | None => Err (mkErr [ErrInvalidLens] "")
      | Some d =>
          if ev_json_ok ev (ev_default ev d) then
            match validate ev t (ev_default ev d) with
            | Ok r => Ok (r, [])
            | Err e => Err (mkErr (ErrLensResultIsInvalidData :: e_marks e) (e_text e))
            | Panic => Panic
            | OutOfFuel => OutOfFuel
            end
          else Err (mkErr [ErrLensIncomplete] "lens produced a non-concrete result")
      end.
Proof.
  intros Hv Hst Hk Hn Ms Mt.
  assert (Hl : s_lin (i_sch i) = l).
  { apply nth_error_In in Hk. exact (proj2 (in_all_version l _ W Hk)). }
  destruct (vs_index n t Hn) as [z [Ez [_ Bz]]]. specialize (Bz Mt). exists z. split; [exact Ez|]. split; [exact Bz|].
  assert (St : strict_vs (l_allv l)) by (rewrite <- vs_allv; apply vs_strict).
  assert (Lk : k < length (all_schemas l)) by (apply nth_error_Some; congruence).
  assert (Ln : n < length (all_schemas l)) by (apply nth_error_Some; congruence).
  assert (L1 : vless (s_v (i_sch i)) (s_v t) = true).
  { apply (strict_lt l k n _ t W St Hk Hn). destruct (Nat.lt_ge_cases k n) as [H|H]; [exact H|exfalso].
    pose proof (vs_major n k t (i_sch i) H Hn Hk). lia. }
  cbn [translate]. rewrite Hv, Hl, LM. cbn [negb]. unfold translateCUE. rewrite Hl, (lin_schema_nth n t Hn), Hst.
  cbn [negb]. unfold cue_steps. rewrite cmpSV_spec, L1, (vs_pos k _ Hk Ms), Ez. split.
  - intros Lz. unfold list_slice. replace (_ || _)%bool with true by lia. reflexivity.
  - intros m -> Lm. unfold list_slice. rewrite all_schemas_length in Lk, Ln.
    replace ((Z.of_nat k + 1 <? 0) || (Z.of_nat m + 1 <? Z.of_nat k + 1)
       || (Z.of_nat (length (l_sch l)) <? Z.of_nat k + 1)
       || (Z.of_nat (length (l_sch l)) <? Z.of_nat m + 1))%Z with false by lia.
    replace (Z.to_nat (Z.of_nat m + 1 - (Z.of_nat k + 1))) with (m - k) by lia.
    replace (Z.to_nat (Z.of_nat k + 1)) with (S k) by lia.
    assert (Lm' : m < length (all_schemas l)) by (rewrite all_schemas_length; lia).
    pose proof (run_fwd m (m - k) k (i_sch i) (i_raw i) ltac:(lia) Lm' Hk) as Sp.
    destruct (run_steps _ _ _ _) as [ts|]; cbn [steps_spec] in Sp; eexists; (split; [exact Sp|]); [|reflexivity].
    cbv iota. destruct (ev_json_ok ev _); cbn [negb]; [|reflexivity].
    destruct (validate ev t _); reflexivity.
Qed.
End L.

Definition ver_dec (a b : version) : {a = b} + {a <> b}.
Proof. decide equality; apply N.eq_dec. Defined.

(** *** For every lineage bound without Go lenses *)
Lemma translate_cue_cases l i to fuel : bound ev l -> l_lensmap l = [] ->
  i_valid i = true -> In (i_sch i) (all_schemas l) ->
  match translate ev rm (S fuel) i to with
  | Ok (r, lac) => lac = [] /\ i_valid r = true /\ In (i_sch r) (all_schemas l) /\ s_v (i_sch r) = to /\
      validate ev (i_sch r) (i_raw r) = Ok r
  | Err e => In to (map s_v (all_schemas l)) /\ ev_struct ev (i_raw i) = true /\
      (e_marks e = [ErrInvalidLens] \/ e_marks e = [ErrLensIncomplete] \/
       exists t data e', In t (all_schemas l) /\ s_v t = to /\ validate ev t data = Err e' /\
         e_marks e = ErrLensResultIsInvalidData :: e_marks e')
  | Panic => ~ In to (map s_v (all_schemas l)) \/ ev_struct ev (i_raw i) = false \/
      exists t data, In t (all_schemas l) /\ s_v t = to /\ validate ev t data = Panic
  | OutOfFuel => False
  end /\
  (~ In to (map s_v (all_schemas l)) \/ ev_struct ev (i_raw i) = false ->
   translate ev rm (S fuel) i to = Panic).
Proof.
  intros B LM Hv Hin. assert (W := bound_wf ev l B).
  assert (Hl : s_lin (i_sch i) = l) by exact (proj2 (in_all_version l _ W Hin)).
  cbn [translate]. rewrite Hv, Hl, LM. cbn [negb]. unfold translateCUE. rewrite Hl.
  rewrite all_schemas_versions by exact W.
  destruct (in_dec ver_dec to (l_allv l)) as [Hto|Hto].
  2:{ rewrite (lin_schema_notin l W to Hto). split; [left; exact Hto|reflexivity]. }
  destruct (lin_schema_in l W to Hto) as [t [Ht [Hvt [Hlt Hat]]]]. rewrite Ht.
  assert (Int : In t (all_schemas l)) by (apply all_schemas_at in Hat; apply nth_error_In in Hat; exact Hat).
  destruct (ev_struct ev (i_raw i)) eqn:Est; cbn [negb].
  2:{ split; [right; left; reflexivity|reflexivity]. }
  split; [|intros [K|K]; [contradiction|discriminate]].
  destruct (cue_steps ev l (i_raw i) (s_v (i_sch i)) to) as [ts|].
  2:{ split; [exact Hto|]. split; [reflexivity|]. left. reflexivity. }
  destruct (ev_json_ok ev _); cbn [negb].
  2:{ split; [exact Hto|]. split; [reflexivity|]. right; left. reflexivity. }
  destruct (validate ev t _) as [r|e| |] eqn:Ev.
  - apply validate_ok in Ev as [C ->]. cbn [i_sch i_raw i_valid]. repeat split; auto.
    apply validate_ok. split; [exact C|reflexivity].
  - split; [exact Hto|]. split; [reflexivity|]. right; right. exists t. do 2 eexists.
    split; [exact Int|]. split; [exact Hvt|]. split; [exact Ev|]. reflexivity.
  - right; right. exists t. eexists. split; [exact Int|]. split; [exact Hvt|exact Ev].
  - exact (validate_no_fuel _ _ _ Ev).
Qed.
End T.

(** *** Steps taken, whatever the lenses *)

(** [steps_from ev l fwd d v ts]: [ts] are steps from the data [d] of version
    [v]; each goes through a lens declared from the version before to the
    version after it that emits no lacuna, but forward steps within a sequence need none. *)
Inductive steps_from {V} (ev : evaluator V) (l : lineage V) (fwd : bool) : V -> version -> list (tstep (V:=V)) -> Prop :=
| sf_done d v : steps_from ev l fwd d v []
| sf_minor d v sd ts : fwd = true -> In sd (l_sch l) -> fst v = fst (sd_v sd) ->
    ev_bottom ev (ev_embed ev d (sd_def sd)) = false ->
    steps_from ev l fwd (ev_embed ev d (sd_def sd)) (sd_v sd) ts ->
    steps_from ev l fwd d v (mkStep v (sd_v sd) (ev_embed ev d (sd_def sd)) [] :: ts)
| sf_lens d v sd c r ts : In sd (l_sch l) -> In c (l_lenses l) ->
    cl_from c = Some v -> cl_to c = Some (sd_v sd) ->
    (fst v <> fst (sd_v sd) \/ fwd = false) ->
    r = ev_embed ev (ev_lens_result ev (cl_val c) d) (sd_def sd) -> ev_bottom ev r = false ->
    ev_lacunas ev (cl_val c) d = [] -> steps_from ev l fwd r (sd_v sd) ts ->
    steps_from ev l fwd d v (mkStep v (sd_v sd) r [] :: ts).

Lemma list_at_in {A} (l : list A) k x : list_at l k = Some x -> In x l.
Proof. unfold list_at. destruct (k <? 0)%Z; [discriminate|]. apply nth_error_In. Qed.

Lemma apply_lens_inv {V} (ev : evaluator V) c d v w def t : apply_lens ev c d v w def = Some t ->
  cl_from c = Some v /\ cl_to c = Some w /\
  t = mkStep v w (ev_embed ev (ev_lens_result ev (cl_val c) d) def) [] /\
  ev_bottom ev (ev_embed ev (ev_lens_result ev (cl_val c) d) def) = false /\ ev_lacunas ev (cl_val c) d = [].
Proof.
  unfold apply_lens. destruct (cl_from c) as [f|]; [|discriminate]. destruct (cl_to c) as [g|]; [|discriminate].
  destruct (veqb f v) eqn:E1; [|discriminate]. destruct (veqb g w) eqn:E2; [|discriminate]. cbn.
  apply veqb_spec in E1, E2. subst. destruct (ev_bottom ev _) eqn:B; [discriminate|].
  destruct (step_lacunas_cases (ev_lacunas ev (cl_val c) d)) as [[EL ->]|[_ ->]]; [|discriminate].
  intros H. injection H as <-. auto.
Qed.

Lemma back_steps_from {V} (ev : evaluator V) l ps : forall d v ts,
  run_steps (back_step ev l) d v ps = Some ts -> steps_from ev l false d v ts.
Proof.
  induction ps as [|p ps IH]; intros d v ts H; cbn in H; [injection H as <-; constructor|].
  destruct (back_step ev l d v p) as [t|] eqn:B; [|discriminate].
  destruct (run_steps _ (ts_result t) (ts_to t) ps) as [ts'|] eqn:R; [|discriminate]. injection H as <-.
  unfold back_step in B. destruct (list_at (l_sch l) p) as [sd|] eqn:L1; [|discriminate].
  destruct (flatidx _ _) as [k|]; [|discriminate]. destruct (list_at (backwardLenses l) k) as [c|] eqn:L2; [|discriminate].
  apply apply_lens_inv in B as [B1 [B2 [-> [B3 B4]]]]. apply list_at_in in L1, L2. apply filter_In in L2 as [L2 _].
  eapply sf_lens; try eassumption; [right; reflexivity|reflexivity|]. apply IH. exact R.
Qed.

Lemma fwd_steps_from {V} (ev : evaluator V) l sds : (forall sd, In sd sds -> In sd (l_sch l)) -> forall d v ts,
  run_steps (fwd_step ev l) d v sds = Some ts -> steps_from ev l true d v ts.
Proof.
  induction sds as [|sd sds IH]; intros I d v ts H; cbn in H; [injection H as <-; constructor|].
  destruct (fwd_step ev l d v sd) as [t|] eqn:B; [|discriminate].
  destruct (run_steps _ (ts_result t) (ts_to t) sds) as [ts'|] eqn:R; [|discriminate]. injection H as <-.
  assert (Is : In sd (l_sch l)) by (apply I; left; reflexivity).
  assert (R' : steps_from ev l true (ts_result t) (ts_to t) ts') by (apply IH; [intros x K; apply I; right; exact K|exact R]).
  unfold fwd_step in B. destruct (fst v =? fst (sd_v sd))%N eqn:E.
  - apply N.eqb_eq in E. destruct (ev_bottom ev _) eqn:Bt; [discriminate|]. injection B as <-. cbn in R'.
    apply sf_minor; auto.
  - apply N.eqb_neq in E. destruct (fst v <? fst (sd_v sd))%N; [|discriminate].
    destruct (list_at (forwardLenses l) _) as [c|] eqn:L2; [|discriminate].
    apply apply_lens_inv in B as [B1 [B2 [-> [B3 B4]]]]. apply list_at_in in L2. apply filter_In in L2 as [L2 _]. cbn in R'.
    eapply sf_lens; try eassumption; [left; exact E|reflexivity].
Qed.

Lemma list_slice_in {A} (l : list A) i j r x : list_slice l i j = Some r -> In x r -> In x l.
Proof.
  unfold list_slice. destruct (_ || _)%bool; [discriminate|]. intros H I. injection H as <-.
  assert (K : In x (skipn (Z.to_nat i) l)).
  { rewrite <- (firstn_skipn (Z.to_nat (j - i)) (skipn (Z.to_nat i) l)). apply in_app_iff. left. exact I. }
  rewrite <- (firstn_skipn (Z.to_nat i) l). apply in_app_iff. right. exact K.
Qed.

Lemma cue_steps_from {V} (ev : evaluator V) l d from to ts : cue_steps ev l d from to = Some ts ->
  steps_from ev l (vless from to) d from ts.
Proof.
  unfold cue_steps. rewrite cmpSV_spec. destruct (vless from to) eqn:E1.
  - destruct (flatidx _ from) as [lo|]; [|discriminate]. destruct (flatidx _ to) as [hi|]; [|discriminate].
    destruct (list_slice _ _ _) as [sds|] eqn:L; [|discriminate]. intros H.
    apply fwd_steps_from in H; [exact H|intros sd I; exact (list_slice_in _ _ _ _ _ L I)].
  - destruct (vless to from).
    + destruct (flatidx _ from) as [hi|]; [|discriminate]. destruct (flatidx _ to) as [lo|]; [|discriminate].
      destruct (list_range_down _ _) as [ps|]; [|discriminate]. apply back_steps_from.
    + intros H. injection H as <-. constructor.
Qed.

Lemma translate_steps {V} (ev : evaluator V) rm l i to fuel r lac : bound ev l -> l_lensmap l = [] ->
  i_valid i = true -> In (i_sch i) (all_schemas l) ->
  translate ev rm (S fuel) i to = Ok (r, lac) ->
  exists ts, steps_from ev l (vless (s_v (i_sch i)) to) (i_raw i) (s_v (i_sch i)) ts /\
    i_raw r = ev_default ev (cue_result (i_raw i) ts).
Proof.
  intros B LM Hv Hin. assert (W := bound_wf ev l B).
  assert (Hl : s_lin (i_sch i) = l) by exact (proj2 (in_all_version l _ W Hin)).
  cbn [translate]. rewrite Hv, Hl, LM. cbn [negb]. unfold translateCUE. rewrite Hl.
  destruct (lin_schema l to) as [t|e| |]; try discriminate. destruct (negb _); [discriminate|].
  destruct (cue_steps ev l _ _ _) as [ts|] eqn:C; [|discriminate]. destruct (negb _); [discriminate|].
  destruct (validate ev t _) as [x|e| |] eqn:Ev; try discriminate. intros H. injection H as <- _.
  apply validate_ok in Ev as [_ ->]. exists ts. split; [apply cue_steps_from; exact C|reflexivity].
Qed.
